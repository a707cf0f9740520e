(** Lemmas about the configuration parser. *)
From Coq Require Import ZArith Lia List Bool ZifyBool.
From Verif Require Import Common Config_Spec Config_Model.
Import ListNotations.
Local Open Scope Z_scope.

Notation len t := (Z.of_nat (length t)).

Lemma mid_ok t pos count : 0 <= pos -> 0 <= count -> pos + count <= len t -> len t < 2 ^ 31 ->
  mid t pos count = Ok (firstn (Z.to_nat count) (skipn (Z.to_nat pos) t)).
Proof.
  intros A B C D. unfold mid. change (2 ^ 31) with 2147483648 in D.
  change (2 ^ 64) with 18446744073709551616.
  rewrite (Z.mod_small pos) by lia. rewrite (Z.mod_small count) by lia. rewrite (Z.mod_small (pos + count)) by lia.
  destruct (len t <=? pos) eqn:E.
  - replace count with 0 by lia. reflexivity.
  - destruct (len t <? pos + count) eqn:F; [lia|]. rewrite F. reflexivity.
Qed.

Lemma lastOf_spaces e : Forall (fun c => space c = true) e -> forall i x, lastOf e i x = x.
Proof. induction 1 as [|c e Hc He IH]; intros i x; cbn [lastOf]; [reflexivity|]. rewrite Hc. apply IH. Qed.
Lemma lastOf_app a : forall b i x, lastOf (a ++ b) i x = lastOf b (i + len a) (lastOf a i x).
Proof.
  induction a as [|c a IH]; intros b i x; cbn [lastOf app length].
  - f_equal. lia.
  - rewrite IH. f_equal. lia.
Qed.
Lemma bounds_spaces p : Forall (fun c => space c = true) p -> forall t i, bounds (p ++ t) i = bounds t (i + len p).
Proof.
  induction 1 as [|c p Hc Hp IH]; intros t i; cbn [bounds app length].
  - f_equal. lia.
  - rewrite Hc, IH. f_equal. lia.
Qed.

Lemma trim_ok p v e : Forall (fun c => space c = true) p -> Forall (fun c => space c = true) e -> trimmed v ->
  (p = [] \/ v = [] \/ (2 <= length v)%nat) -> len (p ++ v ++ e) < 2 ^ 31 -> trim (p ++ v ++ e) = Ok v.
Proof.
  intros P E V S L. unfold trim. rewrite bounds_spaces by exact P.
  destruct v as [|c v].
  - cbn [app] in L |- *. rewrite <- (app_nil_r e) at 1. rewrite bounds_spaces by exact E. cbn [bounds].
    rewrite mid_ok; try lia. reflexivity.
  - cbn [trimmed] in V. destruct V as [V1 V2]. cbn [app bounds]. rewrite V1.
    rewrite lastOf_app, lastOf_spaces by exact E.
    assert (Q : lastOf v (0 + len p + 1) 0 = if (length v =? 0)%nat then 0 else len p + len v).
    { destruct v as [|d v _] using rev_ind; [reflexivity|].
      rewrite lastOf_app. cbn [lastOf].
      replace (last (c :: v ++ [d]) 0) with d in V2 by (rewrite app_comm_cons, last_last; reflexivity).
      rewrite V2, app_length. cbn [length]. destruct (Nat.eqb_spec (length v + 1) 0); lia. }
    rewrite Q. rewrite !app_length in L. cbn [length] in L, S.
    replace ((if (length v =? 0)%nat then 0 else len p + len v) - (0 + len p) + 1) with (1 + len v).
    2:{ destruct (Nat.eqb_spec (length v) 0) as [Z|Z]; [|lia].
        destruct S as [S|[S|S]]; [subst p; cbn [length]; lia|discriminate|lia]. }
    assert (L2 : len (p ++ c :: v ++ e) < 2 ^ 31) by (rewrite !app_length; cbn [length]; rewrite app_length in *; lia).
    rewrite mid_ok; [|lia|lia|rewrite !app_length; cbn [length]; rewrite app_length; lia|exact L2].
    f_equal. replace (Z.to_nat (0 + len p)) with (length p) by lia.
    rewrite skipn_app, skipn_all, Nat.sub_diag. cbn [app skipn].
    replace (Z.to_nat (1 + len v)) with (length (c :: v)) by (cbn [length]; lia).
    change (c :: v ++ e) with ((c :: v) ++ e). rewrite firstn_app, Nat.sub_diag, firstn_all. cbn [firstn]. apply app_nil_r.
Qed.

Lemma blank_space p : Forall blank p -> Forall (fun c => space c = true) p.
Proof. apply Forall_impl. intros c [H _]. exact H. Qed.

Lemma isEol_eol c : isEol c = true <-> eol c.
Proof. unfold isEol, eol. lia. Qed.
Lemma isEol_not c : ~ eol c -> isEol c = false.
Proof. rewrite <- isEol_eol. destruct (isEol c); congruence. Qed.

Lemma takeTo_ok stop b : Forall (fun c => stop c = false) b -> forall c r, stop c = true -> takeTo stop (b ++ c :: r) = (b, c :: r).
Proof.
  induction 1 as [|x b Hx Hb IH]; intros c r H; cbn [takeTo app].
  - rewrite H. reflexivity.
  - rewrite Hx, IH by exact H. reflexivity.
Qed.

Definition begins (t : list Z) : Prop := match t with [] => True | c :: _ => space c = false /\ c <> 35 end.
Lemma skip_comment u : Forall (fun c => c <> 10) u -> forall t, skipNot true (u ++ 10 :: t) = skipNot false t.
Proof.
  induction 1 as [|c u Hc Hu IH]; intro t; cbn [skipNot app].
  - reflexivity.
  - replace (c =? 10) with false by lia. apply IH.
Qed.
Lemma skip_gap g : gap g -> forall t, begins t -> skipNot false (g ++ t) = t.
Proof.
  induction 1 as [|c g Hc Hg IH|u g Hu Hg IH]; intros t B; cbn [app].
  - destruct t as [|c t]; [reflexivity|]. cbn [begins] in B. destruct B as [B1 B2]. cbn [skipNot]. rewrite B1.
    replace (c =? 35) with false by lia. reflexivity.
  - cbn [skipNot]. rewrite Hc. apply IH, B.
  - rewrite <- app_assoc. cbn [app skipNot]. change (space 35) with false. change (35 =? 35) with true. cbv iota.
    rewrite skip_comment by exact Hu. apply IH, B.
Qed.

Lemma skipSpace_ok g : Forall (fun c => space c = true) g -> forall t, match t with [] => True | c :: _ => space c = false end ->
  skipSpace (g ++ t) = t.
Proof.
  induction 1 as [|c g Hc Hg IH]; intros t B; cbn [app].
  - destruct t as [|c t]; [reflexivity|]. cbn [skipSpace]. rewrite B. reflexivity.
  - cbn [skipSpace]. rewrite Hc. apply IH, B.
Qed.

(** one step of the quoted loop *)
Lemma quoted_plain f c r nx : c <> 92 -> c <> 34 -> ~ eol c ->
  quotedLoop (S f) (c :: r) nx = (let! (b, ok, q) := quotedLoop f r c in Ok (c :: b, ok, q)).
Proof.
  intros A B C. cbn [quotedLoop]. replace (c =? 92) with false by lia. replace (c =? 34) with false by lia.
  rewrite (isEol_not c C). destruct r; reflexivity.
Qed.
Lemma quoted_esc f e r nx :
  quotedLoop (S f) (92 :: e :: r) nx =
  (let (x, q) := escaped e r in
   let! (b, ok, q) := quotedLoop f q (match x with Some x => x | None => -1 end) in
   Ok (match x with Some x => x :: b | None => b end, ok, q)).
Proof. reflexivity. Qed.

Lemma quoted_ok q v : quoted q v -> forall t f nx, (length q < f)%nat -> quotedLoop f (q ++ 34 :: t) nx = Ok (v, true, t).
Proof.
  induction 1 as [|c q v A B C Q IH|q v Q IH|q v Q IH|q v Q IH|q v Q IH|q v Q IH|q v Q IH|q v Q IH|c g q v A G B Q IH];
    intros t f nx F; (destruct f as [|f]; [lia|]); cbn [length] in F.
  1: cbn [app quotedLoop]; destruct t; reflexivity.
  1: { cbn [app]. rewrite quoted_plain by assumption. rewrite IH by lia. reflexivity. }
  1-7: cbn [app]; rewrite quoted_esc; change (escaped 110) with (fun r : list Z => (Some 10, r));
    change (escaped 114) with (fun r : list Z => (Some 13, r)); change (escaped 116) with (fun r : list Z => (Some 9, r));
    change (escaped 97) with (fun r : list Z => (Some 7, r)); change (escaped 48) with (fun r : list Z => (Some 0, r));
    change (escaped 34) with (fun r : list Z => (Some 34, r)); change (escaped 92) with (fun r : list Z => (Some 92, r));
    cbv beta iota; rewrite IH by lia; reflexivity.
  rewrite app_length in F. cbn [app]. rewrite quoted_esc.
  replace (escaped c ((g ++ q) ++ 34 :: t)) with (@None Z, q ++ 34 :: t).
  - rewrite IH by lia. reflexivity.
  - rewrite <- app_assoc. unfold escaped. destruct A as [-> | ->]; cbn - [skipSpace app];
    (rewrite skipSpace_ok; [reflexivity|exact G|destruct q; [reflexivity|exact B]]).
Qed.

Lemma plain_ok b : Forall (fun c => ~ eol c) b -> forall c t nx, eol c -> ~ eol nx -> plainLoop nx (b ++ c :: t) = (nx :: b, t).
Proof.
  induction 1 as [|x b Hx Hb IH]; intros c t nx C N; cbn [app plainLoop]; rewrite (isEol_not nx N).
  - destruct t as [|d t]; cbn [plainLoop]; [reflexivity|]. apply isEol_eol in C. rewrite C. reflexivity.
  - rewrite IH by assumption. reflexivity.
Qed.

Lemma value_ok x v : value x v -> forall t, len (x ++ t) < 2 ^ 31 -> parseValue (x ++ t) = Ok (Some v, t).
Proof.
  intros [p w e c P E C T F S H|q w Q T] t L.
  - assert (B : Forall (fun c => ~ eol c) (p ++ w ++ e)).
    { apply Forall_app. split; [|apply Forall_app; split; [exact F|]];
        [eapply Forall_impl; [|exact P]|eapply Forall_impl; [|exact E]]; cbn beta; intros d (_ & D1 & D2) [D|D]; congruence. }
    assert (H34 : hd 0 (p ++ w ++ e) <> 34).
    { destruct p as [|d p]; [|inversion P as [|? ? [D _] _]; cbn; intros ->; discriminate].
      destruct w as [|d w]; [|exact H]. destruct e as [|d e]; [cbn; lia|]. inversion E as [|? ? [D _] _]; cbn; intros ->; discriminate. }
    assert (L2 : len (p ++ w ++ e) < 2 ^ 31) by (rewrite !app_length in L; rewrite !app_length; lia).
    pose proof (trim_ok p w e (blank_space p P) (blank_space e E) T S L2) as TR.
    replace ((p ++ w ++ e ++ [c]) ++ t) with ((p ++ w ++ e) ++ c :: t) by (rewrite <- !app_assoc; reflexivity).
    clear - B H34 TR C. destruct (p ++ w ++ e) as [|d b]; cbn [app parseValue hd] in *.
    + replace (c =? 34) with false by (destruct C; lia).
      replace (plainLoop c t) with (@nil Z, t).
      * rewrite TR. reflexivity.
      * destruct t; cbn [plainLoop]; [reflexivity|]. apply isEol_eol in C. rewrite C. reflexivity.
    + replace (d =? 34) with false by lia. inversion_clear B as [|? ? B1 B2].
      rewrite plain_ok by assumption. rewrite TR. reflexivity.
  - cbn [app parseValue]. rewrite <- app_assoc. cbn [app]. change (34 =? 34) with true. cbv iota.
    rewrite (quoted_ok q w Q); [|rewrite app_length; cbn [length]; lia]. cbn [obind].
    replace (trim w) with (Ok w); [reflexivity|].
    symmetry. rewrite <- (app_nil_r w) at 1. apply (trim_ok [] w []); auto.
    rewrite app_nil_r. cbn [app].
    enough (length w <= length q)%nat by (cbn [app length] in L; rewrite !app_length in L; cbn [length] in L; lia).
    clear - Q. induction Q; cbn [length]; rewrite ?app_length; lia.
Qed.

Lemma header_line h n : header h n -> forall g t s x y, gap g -> len (g ++ h ++ t) < 2 ^ 31 ->
  getNextLine (mkP (g ++ h ++ t) s x y) = Ok (mkP t n x y, Some false).
Proof.
  intros [p m e P E (N & T & F) S] g t s x y G L. unfold getNextLine. cbn [inp sec var val].
  rewrite skip_gap; [|exact G|cbn; split; [reflexivity|lia]].
  cbn [app]. change (91 =? 91) with true. cbv iota. unfold parseSection. cbn [inp sec var val].
  replace ((p ++ m ++ e ++ [93]) ++ t) with ((p ++ m ++ e) ++ 93 :: t) by (rewrite <- !app_assoc; reflexivity).
  rewrite takeTo_ok; [|..|reflexivity].
  - change (93 =? 93) with true. cbv iota. rewrite trim_ok; [reflexivity|apply blank_space; assumption..|exact T| |].
    + destruct S; [left|right; right]; assumption.
    + rewrite !app_length in L. rewrite !app_length. cbn [length] in L. rewrite !app_length in L. lia.
  - assert (B : forall l, Forall blank l -> Forall (fun c => (c =? 93) || isEol c = false) l).
    { intro l. apply Forall_impl. intros c (C1 & C2 & C3). unfold isEol, space in *. lia. }
    apply Forall_app. split; [apply B, P|]. apply Forall_app. split; [|apply B, E].
    eapply Forall_impl; [|exact F]. cbn beta. intros c (C1 & C2). apply isEol_not in C2. rewrite C2. lia.
Qed.

Lemma assign_line a n w : assign a n w -> forall g t s x y, gap g -> len (g ++ a ++ t) < 2 ^ 31 ->
  getNextLine (mkP (g ++ a ++ t) s x y) = Ok (mkP t s n w, Some true) /\ hd 0 n <> 46.
Proof.
  intros [m e v u (N & T & F & H1 & H2 & H3) E V] g t s x y G L. split; [|exact H2].
  unfold getNextLine. cbn [inp sec var val].
  destruct m as [|c m]; [congruence|]. cbn [hd] in *.
  assert (C : space c = false) by (cbn [trimmed] in T; tauto).
  rewrite skip_gap; [|exact G|cbn; split; [exact C|exact H3]].
  cbn [app]. replace (c =? 91) with false by lia. replace (c =? 46) with false by lia. unfold parseField. cbn [inp sec var val].
  replace (c :: (m ++ e ++ 61 :: v) ++ t) with (((c :: m) ++ e) ++ 61 :: v ++ t) by (cbn [app]; rewrite <- !app_assoc; reflexivity).
  rewrite takeTo_ok; [|..|reflexivity].
  - change (61 =? 61) with true. cbv iota. change ((c :: m) ++ e) with ([] ++ (c :: m) ++ e). rewrite (trim_ok [] (c :: m) e); auto using blank_space.
    + cbn [obind]. rewrite (value_ok v u V); [reflexivity|]. cbn [app] in L. rewrite !app_length in L. rewrite !app_length. cbn [length] in L.
      rewrite !app_length in L. cbn [length] in L. lia.
    + cbn [app] in L |- *. rewrite !app_length in L. cbn [length] in *. rewrite !app_length in *. cbn [length] in *. lia.
  - apply Forall_app. split.
    + eapply Forall_impl; [|exact F]. cbn beta. intros d (C1 & C2). apply isEol_not in C2. rewrite C2. lia.
    + eapply Forall_impl; [|exact E]. cbn beta. intros d (C1 & C2 & C3). unfold isEol, space in *. lia.
Qed.

Lemma junk_line j : junk j -> forall c g t s x y, eol c -> gap g ->
  getNextLine (mkP (g ++ j ++ c :: t) s x y) = Ok (mkP (c :: t) s x y, None).
Proof.
  intros [B F] c g t s x y C G. unfold getNextLine. cbn [inp sec var val].
  destruct j as [|d j]; [contradiction|]. destruct B as (B1 & B2 & B3 & B4).
  rewrite skip_gap; [|exact G|cbn; split; assumption].
  cbn [app]. replace (d =? 91) with false by lia. replace (d =? 46) with false by lia. unfold parseField. cbn [inp sec var val].
  change (d :: j ++ c :: t) with ((d :: j) ++ c :: t). rewrite takeTo_ok.
  - replace (c =? 61) with false by (destruct C; lia). reflexivity.
  - eapply Forall_impl; [|exact F]. cbn beta. intros e (C1 & C2). apply isEol_not in C2. rewrite C2. lia.
  - apply isEol_eol in C. rewrite C. apply orb_true_r.
Qed.
Lemma quoted_open q : Forall (fun c => c <> 34 /\ c <> 92 /\ ~ eol c) q -> forall c t f nx, eol c -> (length q < f)%nat ->
  exists b, quotedLoop f (q ++ c :: t) nx = Ok (b, false, t).
Proof.
  induction 1 as [|d q (A & B & C) Q IH]; intros c t f nx E F; (destruct f as [|f]; [lia|]); cbn [app].
  - exists []. cbn [quotedLoop]. destruct E as [-> | ->]; cbn - [quotedLoop]; destruct t; reflexivity.
  - rewrite quoted_plain by assumption. cbn [length] in F. destruct (IH c t f d E) as [b E2]; [lia|]. rewrite E2. cbn [obind]. eauto.
Qed.
Lemma bad_line b : badline b -> forall g t s x y, gap g -> len (g ++ b ++ t) < 2 ^ 31 ->
  exists r x', getNextLine (mkP (g ++ b ++ t) s x y) = Ok (mkP r s x' y, None) /\ skipNot false r = skipNot false t.
Proof.
  intros [j c J C|u c U C|n e q c (N & T & F & H1 & H2 & H3) E Q C] g t s x y G L.
  - exists (c :: t), x. rewrite <- app_assoc. cbn [app]. rewrite junk_line by assumption. split; [reflexivity|]. destruct C; subst c; reflexivity.
  - exists (c :: t), x. split; [|destruct C; subst c; reflexivity].
    unfold getNextLine. cbn [inp sec var val]. rewrite skip_gap; [|exact G|cbn; split; [reflexivity|lia]].
    cbn [app]. change (91 =? 91) with true. cbv iota. unfold parseSection. cbn [inp sec var val].
    rewrite <- app_assoc. cbn [app]. rewrite takeTo_ok.
    + replace (c =? 93) with false by (destruct C; lia). reflexivity.
    + eapply Forall_impl; [|exact U]. cbn beta. intros d (C1 & C2). apply isEol_not in C2. rewrite C2. lia.
    + apply isEol_eol in C. rewrite C. apply orb_true_r.
  - exists t, n. split; [|reflexivity]. unfold getNextLine. cbn [inp sec var val].
    destruct n as [|d m]; [congruence|]. cbn [hd] in *.
    assert (D : space d = false) by (cbn [trimmed] in T; tauto).
    rewrite skip_gap; [|exact G|cbn; split; [exact D|exact H3]].
    cbn [app]. replace (d =? 91) with false by lia. replace (d =? 46) with false by lia. unfold parseField. cbn [inp sec var val].
    replace (d :: (m ++ e ++ 61 :: 34 :: q ++ [c]) ++ t) with (((d :: m) ++ e) ++ 61 :: 34 :: q ++ c :: t)
      by (cbn [app]; rewrite <- !app_assoc; cbn [app]; rewrite <- !app_assoc; reflexivity).
    rewrite takeTo_ok; [|..|reflexivity].
    + change (61 =? 61) with true. cbv iota. change ((d :: m) ++ e) with ([] ++ (d :: m) ++ e).
      rewrite (trim_ok [] (d :: m) e); auto using blank_space.
      * cbn [obind parseValue]. change (34 =? 34) with true. cbv iota.
        destruct (quoted_open q Q c t (S (length (q ++ c :: t))) 34 C) as [bb E2]; [rewrite app_length; lia|]. rewrite E2. reflexivity.
      * cbn [app] in L |- *. rewrite !app_length in L. cbn [length] in *. rewrite !app_length in *. cbn [length] in *. lia.
    + apply Forall_app. split.
      * eapply Forall_impl; [|exact F]. cbn beta. intros z (C1 & C2). apply isEol_not in C2. rewrite C2. lia.
      * eapply Forall_impl; [|exact E]. cbn beta. intros z (C1 & C2 & C3). unfold isEol, space in *. lia.
Qed.
Lemma end_line g s x y : gap g -> getNextLine (mkP g s x y) = Ok (mkP [] [] x y, Some false).
Proof.
  intro G. unfold getNextLine. cbn [inp sec var val]. rewrite <- (app_nil_r g), skip_gap by (assumption || exact I). reflexivity.
Qed.

Lemma header_pos h n : header h n -> (0 < length h)%nat.
Proof. intros []. cbn [length]. lia. Qed.
Lemma assign_pos a n w : assign a n w -> (0 < length a)%nat.
Proof. intros []. rewrite !app_length. cbn [length]. lia. Qed.
Lemma badline_pos b : badline b -> (0 < length b)%nat.
Proof. intros []; cbn [length]; rewrite ?app_length; cbn [length]; lia. Qed.
Lemma header_name h n : header h n -> n <> [].
Proof. intros [p m e P E (N & _) S]. exact N. Qed.

Lemma merge_step f ig s : sec s <> [] ->
  mergeLoop (S f) ig s =
  (let! (s, r) := getNextLine s in
   match r with
   | Some true => let! l := mergeLoop f ig s in match var s with 46 :: _ => Ok l | _ => Ok ((sec s, var s, val s) :: l) end
   | Some false => mergeLoop f ig s
   | None => if (ig : bool) then mergeLoop f ig s else Throw
   end).
Proof. intro N. cbn [mergeLoop]. destruct (sec s); [congruence|]. reflexivity. Qed.

Lemma hd46 (n : list Z) (A : Type) (a b : A) : hd 0 n <> 46 -> match n with 46 :: _ => a | _ => b end = b.
Proof.
  intro H. destruct n as [|c n]; [reflexivity|]. cbn [hd] in H. destruct (Z.eq_dec c 46) as [E|N]; [congruence|].
  destruct c as [|c|c]; try reflexivity. repeat (destruct c as [c|c|]; try reflexivity). congruence.
Qed.

Lemma config_merge bad s t f : config bad s t f -> forall fuel x y, s <> [] -> len t < 2 ^ 31 -> (length t + 2 <= fuel)%nat ->
  mergeLoop fuel bad (mkP t s x y) = Ok f.
Proof.
  induction 1 as [s g G|s g h n t f G H C IH|s g a n w t f G A C IH|s g b t f B G J C IH]; intros fuel x y N L F;
    (destruct fuel as [|fuel]; [lia|]); rewrite merge_step by exact N.
  - rewrite end_line by exact G. cbn [obind]. destruct fuel; [lia|]. reflexivity.
  - rewrite (header_line h n H) by assumption. cbn [obind]. rewrite !app_length in L, F. pose proof (header_pos h n H).
    apply IH; [apply (header_name h n H)|lia|lia].
  - destruct (assign_line a n w A g t s x y G L) as [E E2]. rewrite E. cbn [obind]. rewrite !app_length in L, F. pose proof (assign_pos a n w A).
    rewrite IH; [|assumption|lia|lia]. cbn [obind var sec val]. apply hd46, E2.
  - subst bad. destruct (bad_line b J g t s x y G L) as (r & x' & E1 & E2). rewrite E1. cbn [obind].
    assert (Q : forall k, mergeLoop k true (mkP r s x' y) = mergeLoop k true (mkP t s x' y)).
    { intro k. destruct k as [|k]; [reflexivity|]. rewrite !merge_step by exact N.
      replace (getNextLine (mkP r s x' y)) with (getNextLine (mkP t s x' y)); [reflexivity|].
      unfold getNextLine. cbn [inp sec var val]. rewrite E2. reflexivity. }
    rewrite Q. rewrite !app_length in L, F. pose proof (badline_pos b J). apply IH; [assumption|lia|lia].
Qed.

Lemma document_ok bad t f : document bad t f -> forall fuel fuel2 x y, len t < 2 ^ 31 -> (length t + 2 <= fuel)%nat -> (length t + 2 <= fuel2)%nat ->
  (let! s := skipSection fuel (mkP t [] x y) in mergeLoop fuel2 bad s) = Ok f.
Proof.
  induction 1 as [g G|g h n t f G H C|g a n w t f G A C IH]; intros fuel fuel2 x y L F F2;
    (destruct fuel as [|fuel]; [lia|]); cbn [skipSection].
  - rewrite end_line by exact G. cbn [obind]. destruct fuel2; [lia|]. reflexivity.
  - rewrite (header_line h n H) by assumption. cbn [obind]. rewrite !app_length in L, F2.
    apply (config_merge bad n t f C); [apply (header_name h n H)|lia|lia].
  - destruct (assign_line a n w A g t [] x y G L) as [E E2]. rewrite E. cbn [obind]. rewrite !app_length in L, F, F2. pose proof (assign_pos a n w A).
    apply IH; lia.
Qed.

(** ** The parser always comes to an end. *)
Lemma mid_fuel t a b : mid t a b <> NoFuel.
Proof. unfold mid. repeat match goal with |- context [if ?x then _ else _] => destruct x end; discriminate. Qed.
Lemma trim_fuel t : trim t <> NoFuel.
Proof. unfold trim. destruct (bounds t 0). apply mid_fuel. Qed.
Lemma skipNot_len t : forall com, (length (skipNot com t) <= length t)%nat.
Proof.
  induction t as [|c t IH]; intro com; cbn [skipNot]; [lia|].
  destruct com; [specialize (IH (negb (c =? 10))); cbn [length]; lia|].
  destruct (space c); [specialize (IH false); cbn [length]; lia|].
  destruct (c =? 35); [specialize (IH true); cbn [length]; lia|lia].
Qed.
Lemma skipNot_space t : forall com c r, skipNot com t = c :: r -> space c = false.
Proof.
  induction t as [|d t IH]; intros com c r; cbn [skipNot]; [discriminate|].
  destruct com; [apply IH|]. destruct (space d) eqn:E; [apply IH|]. destruct (d =? 35); [apply IH|]. congruence.
Qed.
Lemma skipSpace_len t : (length (skipSpace t) <= length t)%nat.
Proof. induction t as [|c t IH]; cbn [skipSpace]; [lia|]. destruct (space c); cbn [length]; lia. Qed.
Lemma takeTo_len stop t : forall b r, takeTo stop t = (b, r) -> (length r <= length t)%nat.
Proof.
  induction t as [|c t IH]; intros b r; cbn [takeTo].
  - intro E. injection E as E1 E2. subst. lia.
  - destruct (stop c); [intro E; injection E as E1 E2; subst; lia|]. destruct (takeTo stop t) as [b' r'].
    intro E. injection E as E1 E2. subst. specialize (IH b' r eq_refl). cbn [length]. lia.
Qed.
Lemma escaped_len c r x q : escaped c r = (x, q) -> (length q <= length r)%nat.
Proof.
  unfold escaped. pose proof (skipSpace_len r) as H.
  repeat match goal with |- context [if ?x then _ else _] => destruct x end; intro E; injection E as E1 E2; subst; lia.
Qed.
Lemma quoted_step_any f c r nx :
  quotedLoop (S f) (c :: r) nx =
  (if (c =? 92) && negb (length r =? 0)%nat then
     (let (x, q) := escaped (hd 0 r) (tl r) in
      let! (b, ok, q) := quotedLoop f q (match x with Some x => x | None => -1 end) in
      Ok (match x with Some x => x :: b | None => b end, ok, q))
   else if (c =? 34) || isEol c then Ok ([], c =? 34, r)
   else let! (b, ok, q) := quotedLoop f r c in Ok (c :: b, ok, q)).
Proof. cbn [quotedLoop]. destruct r as [|e r]; cbn [length hd tl]; [rewrite andb_false_r|rewrite andb_true_r]; reflexivity. Qed.
Lemma quoted_len f : forall t nx, (length t < f)%nat ->
  exists b ok q, quotedLoop f t nx = Ok (b, ok, q) /\ (length q <= length t)%nat.
Proof.
  induction f as [|f IH]; intros t nx L; [lia|]. destruct t as [|c r]; [cbn; eauto|].
  rewrite quoted_step_any. cbn [length] in L.
  destruct ((c =? 92) && negb (length r =? 0)%nat).
  - destruct (escaped (hd 0 r) (tl r)) as [x q] eqn:E. apply escaped_len in E.
    assert (length (tl r) <= length r)%nat by (destruct r; cbn [tl length]; lia).
    destruct (IH q (match x with Some x => x | None => -1 end)) as (b & ok & q' & E2 & E3); [lia|].
    rewrite E2. cbn [obind]. eexists _, _, _. split; [reflexivity|]. cbn [length]. lia.
  - destruct ((c =? 34) || isEol c); [eexists _, _, _; split; [reflexivity|cbn [length]; lia]|].
    destruct (IH r c) as (b & ok & q' & E2 & E3); [lia|]. rewrite E2. cbn [obind].
    eexists _, _, _. split; [reflexivity|]. cbn [length]. lia.
Qed.
Lemma plain_len t : forall nx b q, plainLoop nx t = (b, q) -> (length q <= length t)%nat.
Proof.
  induction t as [|c t IH]; intros nx b q; cbn [plainLoop].
  - intro E. injection E as E1 E2. subst. lia.
  - destruct (isEol nx); [intro E; injection E as E1 E2; subst; lia|]. destruct (plainLoop c t) as [b' q'] eqn:P.
    intro E. injection E as E1 E2. subst. apply IH in P. cbn [length]. lia.
Qed.
(** a result, or undefined behaviour *)
Definition shrinks {A} (n : nat) (x : outcome (A * list Z)) : Prop :=
  match x with Ok (_, q) => (length q <= n)%nat | Undef => True | _ => False end.
Lemma trim_cases t : trim t = Undef \/ exists v, trim t = Ok v.
Proof.
  unfold trim. destruct (bounds t 0). unfold mid.
  repeat match goal with |- context [if ?x then _ else _] => destruct x end; eauto.
Qed.
Lemma value_len t : shrinks (length t) (parseValue t).
Proof.
  unfold parseValue. destruct t as [|c r]; [cbn; lia|]. destruct (c =? 34).
  - destruct (quoted_len (S (length r)) r c) as (b & ok & q & E & L); [lia|]. rewrite E. cbn [obind].
    destruct ok; [|cbn; lia]. destruct (trim_cases b) as [E2|[v E2]]; rewrite E2; cbn; [exact I|lia].
  - destruct (plainLoop c r) as [b q] eqn:E. apply plain_len in E.
    destruct (trim_cases b) as [E2|[v E2]]; rewrite E2; cbn; [exact I|lia].
Qed.

Definition progress (s : pst) (x : outcome lineRes) : Prop :=
  match x with
  | Ok (s', r) =>
      (length (inp s') < length (inp s))%nat \/
      (r = Some false /\ (length (inp s') <= length (inp s))%nat /\ (sec s' = [] \/ sec s' = [46] /\ sec s <> [46]))
  | Undef => True
  | _ => False
  end.
Lemma takeTo_first stop c t b r : stop c = false -> takeTo stop (c :: t) = (b, r) -> (length r <= length t)%nat.
Proof.
  intros H. cbn [takeTo]. rewrite H. destruct (takeTo stop t) as [b' r'] eqn:E. intro F. injection F as F1 F2. subst.
  apply takeTo_len in E. exact E.
Qed.
Lemma dotcase (l : list Z) (A : Type) (a b : A) : match l with [46] => a | _ => b end = if list_eq_dec Z.eq_dec l [46] then a else b.
Proof.
  destruct (list_eq_dec Z.eq_dec l [46]) as [->|N]; [reflexivity|].
  destruct l as [|c l]; [reflexivity|]. destruct (Z.eq_dec c 46) as [->|M].
  - destruct l; [congruence|reflexivity].
  - destruct c as [|c|c]; try reflexivity. repeat (destruct c as [c|c|]; try reflexivity). congruence.
Qed.

Lemma line_progress s : progress s (getNextLine s).
Proof.
  unfold getNextLine. pose proof (skipNot_len (inp s) false) as L. pose proof (skipNot_space (inp s) false) as Sp.
  destruct (skipNot false (inp s)) as [|c t]; [cbn; right; repeat split; [cbn; lia|left; reflexivity]|].
  specialize (Sp c t eq_refl). cbn [length] in L. destruct (c =? 91) eqn:E91.
  - unfold parseSection. cbn [inp sec var val]. destruct (takeTo _ t) as [b r] eqn:E. apply takeTo_len in E.
    destruct r as [|d r]; [cbn; left; lia|]. cbn [length] in E. destruct (d =? 93); [|cbn; left; lia].
    destruct (trim_cases b) as [E2|[v E2]]; rewrite E2; cbn; [exact I|left; lia].
  - destruct (c =? 46) eqn:E46.
    + unfold parseSpecial. cbn [inp sec var val]. rewrite dotcase. destruct (list_eq_dec Z.eq_dec (sec s) [46]) as [S|S].
      * destruct (takeTo _ (c :: t)) as [b r] eqn:E. apply takeTo_first in E; [|unfold isEol; lia].
        destruct r as [|d r]; [cbn; left; lia|]. cbn [length] in E. destruct (d =? 32); [|cbn; left; lia].
        destruct (trim_cases b) as [E2|[v E2]]; rewrite E2; cbn [obind]; [exact I|].
        pose proof (value_len r) as V. unfold shrinks in V. destruct (parseValue r) as [[[w|] q]| | |]; try contradiction; cbn; auto; left; lia.
      * cbn. right. repeat split; [lia|]. right. split; [reflexivity|exact S].
    + unfold parseField. cbn [inp sec var val]. destruct (takeTo _ (c :: t)) as [b r] eqn:E.
      assert (Q : (length r <= length t)%nat \/ (c = 61 /\ b = [] /\ r = c :: t)).
      { destruct (Z.eq_dec c 61) as [->|N]; [right; cbn [takeTo] in E; injection E as E1 E2; auto|left].
        apply takeTo_first in E; [exact E|]. unfold isEol, space in *. lia. }
      destruct Q as [Q|(-> & -> & ->)].
      * destruct r as [|d r]; [cbn; left; lia|]. cbn [length] in Q. destruct (d =? 61); [|cbn; left; lia].
        destruct (trim_cases b) as [E2|[v E2]]; rewrite E2; cbn [obind]; [exact I|].
        pose proof (value_len r) as V. unfold shrinks in V. destruct (parseValue r) as [[[w|] q]| | |]; try contradiction; cbn; auto; left; lia.
      * change (61 =? 61) with true. cbv iota. change (trim []) with (Ok (@nil Z)). cbn [obind].
        pose proof (value_len t) as V. unfold shrinks in V. destruct (parseValue t) as [[[w|] q]| | |]; try contradiction; cbn; auto; left; lia.
Qed.

Definition dots (l : list Z) : nat := match l with [] => 0 | _ => if list_eq_dec Z.eq_dec l [46] then 1 else 2 end.
Lemma dots_le l : (dots l <= 2)%nat.
Proof. unfold dots. destruct l; [lia|]. destruct (list_eq_dec _ _ _); lia. Qed.
Lemma merge_ends f : forall ig s, (2 * length (inp s) + dots (sec s) < f)%nat -> mergeLoop f ig s <> NoFuel.
Proof.
  induction f as [|f IH]; intros ig s L; [lia|].
  destruct (list_eq_dec Z.eq_dec (sec s) []) as [E|N]; [cbn [mergeLoop]; rewrite E; discriminate|].
  rewrite merge_step by exact N. pose proof (line_progress s) as P. unfold progress in P.
  destruct (getNextLine s) as [[s' r]| | |]; try contradiction; try discriminate. cbn [obind].
  assert (Q : (2 * length (inp s') + dots (sec s') < f)%nat).
  { pose proof (dots_le (sec s')) as D'. assert (D : (1 <= dots (sec s))%nat) by (unfold dots; destruct (sec s); [congruence|]; destruct (list_eq_dec _ _ _); lia).
    destruct P as [P|(_ & P & [H|[H1 H2]])]; [lia|rewrite H; cbn [dots]; lia|].
    assert (dots (sec s) = 2)%nat by (unfold dots; destruct (sec s); [congruence|]; destruct (list_eq_dec _ _ _); congruence).
    rewrite H1. change (dots [46]) with 1%nat. lia. }
  pose proof (IH ig s' Q) as R. destruct r as [[|]|].
  - destruct (mergeLoop f ig s'); cbn [obind]; try congruence. destruct (Z.eq_dec (hd 0 (var s')) 46) as [H|H].
    + destruct (var s') as [|z zs]; [discriminate|]. cbn [hd] in H. subst z. discriminate.
    + rewrite hd46 by exact H. discriminate.
  - exact R.
  - destruct ig; [exact R|discriminate].
Qed.

Lemma skip_ends f : forall s, (length (inp s) < f)%nat ->
  match skipSection f s with Ok s' => (length (inp s') <= length (inp s))%nat | Throw | Undef => True | NoFuel => False end.
Proof.
  induction f as [|f IH]; intros s L; [lia|]. cbn [skipSection].
  pose proof (line_progress s) as P. unfold progress in P.
  destruct (getNextLine s) as [[s' r]| | |]; try contradiction; try exact I. cbn [obind].
  destruct r as [[|]|]; [|destruct P as [P|(_ & P & _)]; lia|exact I].
  destruct P as [P|(P & _)]; [|discriminate]. specialize (IH s'). assert (Q : (length (inp s') < f)%nat) by lia. specialize (IH Q).
  destruct (skipSection f s'); try exact IH. lia.
Qed.

(** ** Bad lines without [ignoreErrors]. *)
Lemma spoiled_merge t : spoiled t -> forall fuel s x y, s <> [] -> len t < 2 ^ 31 -> (length t < fuel)%nat ->
  mergeLoop fuel false (mkP t s x y) = Throw.
Proof.
  induction 1 as [g b t G J|g h n t G H S IH|g a n w t G A S IH]; intros fuel s x y N L F;
    (destruct fuel as [|fuel]; [lia|]); rewrite merge_step by exact N.
  - destruct (bad_line b J g t s x y G L) as (r & x' & E1 & _). rewrite E1. reflexivity.
  - rewrite (header_line h n H) by assumption. cbn [obind]. rewrite !app_length in L, F. pose proof (header_pos h n H).
    apply IH; [apply (header_name h n H)|lia|lia].
  - destruct (assign_line a n w A g t s x y G L) as [E E2]. rewrite E. cbn [obind]. rewrite !app_length in L, F. pose proof (assign_pos a n w A).
    rewrite IH; [reflexivity|assumption|lia|lia].
Qed.
Lemma spoiled_ok t : spoiled t -> forall fuel fuel2 x y, len t < 2 ^ 31 -> (length t < fuel)%nat -> (length t < fuel2)%nat ->
  (let! s := skipSection fuel (mkP t [] x y) in mergeLoop fuel2 false s) = Throw.
Proof.
  induction 1 as [g b t G J|g h n t G H S IH|g a n w t G A S IH]; intros fuel fuel2 x y L F F2;
    (destruct fuel as [|fuel]; [lia|]); cbn [skipSection].
  - destruct (bad_line b J g t [] x y G L) as (r & x' & E1 & _). rewrite E1. reflexivity.
  - rewrite (header_line h n H) by assumption. cbn [obind]. rewrite !app_length in L, F2.
    apply (spoiled_merge t S); [apply (header_name h n H)|lia|lia].
  - destruct (assign_line a n w A g t [] x y G L) as [E E2]. rewrite E. cbn [obind]. rewrite !app_length in L, F, F2. pose proof (assign_pos a n w A).
    apply IH; lia.
Qed.
Lemma config_mono s t f : config false s t f -> config true s t f.
Proof. induction 1; [apply c_end|eapply c_section|eapply c_field|discriminate]; eassumption. Qed.
Lemma document_mono t f : document false t f -> document true t f.
Proof. induction 1; [apply d_end|eapply d_section|eapply d_field]; eauto using config_mono. Qed.
