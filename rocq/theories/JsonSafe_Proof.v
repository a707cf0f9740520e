(** The JSON parser on arbitrary input. *)
From Verif Require Import Common Conv_Model Utf_Model Utf_Spec Utf_Proof Rational_Model IntText_Model Json_Spec Json_Model Json_Proof.
Local Open Scope N_scope.

(** [r] is what is left of [s] after reading at least one character *)
Definition left_of (s r : list N) : Prop := exists p, s = p ++ r /\ p <> [].
Definition good {A} (s : list N) (o : outcome (A * list N)) : Prop :=
  match o with Ok (_, r) => left_of s r | Throw => True | Undef => In 45 s | NoFuel => False end.
Lemma left_cons c s : left_of (c :: s) s. Proof. exists [c]. split; [reflexivity|discriminate]. Qed.
Lemma left_trans s r q : left_of s r -> left_of r q -> left_of s q.
Proof. intros (p & -> & H) (p' & -> & _). exists (p ++ p'). split; [rewrite app_assoc; reflexivity|]. destruct p; [congruence|discriminate]. Qed.
Lemma left_length s r : left_of s r -> (length r < length s)%nat.
Proof. intros (p & -> & H). rewrite app_length. destruct p; [congruence|cbn; lia]. Qed.
Lemma left_in s r c : left_of s r -> In c r -> In c s.
Proof. intros (p & -> & _) H. apply in_or_app. auto. Qed.
Lemma good_left {A} s r (o : outcome (A * list N)) : left_of s r -> good r o -> good s o.
Proof.
  intros H. destruct o as [[a q]| | |]; cbn; auto; [apply left_trans; exact H|apply left_in; exact H].
Qed.
Lemma good_bind {A B} s (o : outcome (A * list N)) (g : A * list N -> outcome (B * list N)) :
  good s o -> (forall a r, o = Ok (a, r) -> left_of s r -> good r (g (a, r)) \/ good s (g (a, r))) -> good s (obind o g).
Proof.
  intros H K. destruct o as [[a r]| | |]; cbn in *; auto. destruct (K a r eq_refl H); [apply (good_left s r); assumption|assumption].
Qed.
Lemma good_ret {A} s r (a : A) : left_of s r -> good s (Ok (a, r)). Proof. intros H. exact H. Qed.

Lemma nextNonSpace_good s : good s (nextNonSpace s).
Proof.
  induction s as [|c s IH]; [exact I|]. cbn [nextNonSpace]. destruct (isspace c); [|apply left_cons].
  apply (good_left _ s); [apply left_cons|exact IH].
Qed.
Lemma nextToken_good s : good s (nextToken s).
Proof.
  induction s as [|c s IH]; [exact I|]. cbn [nextToken]. destruct (skipped c); [|apply left_cons].
  apply (good_left _ s); [apply left_cons|exact IH].
Qed.
Lemma nextNonSpace_in t c r : nextNonSpace t = Ok (c, r) -> exists p, t = p ++ c :: r.
Proof.
  induction t as [|y t IH]; [discriminate|]. cbn [nextNonSpace]. destruct (isspace y).
  - intros E. destruct (IH E) as (p & ->). exists (y :: p). reflexivity.
  - intros [= -> ->]. exists []. reflexivity.
Qed.
Lemma nextToken_in t c r : nextToken t = Ok (c, r) -> exists p, t = p ++ c :: r.
Proof.
  induction t as [|y t IH]; [discriminate|]. cbn [nextToken]. destruct (skipped y).
  - intros E. destruct (IH E) as (p & ->). exists (y :: p). reflexivity.
  - intros [= -> ->]. exists []. reflexivity.
Qed.
Lemma peekNonSpace_tail s : match peekNonSpace s with Ok r => exists p, s = p ++ r | Throw => True | _ => False end.
Proof.
  induction s as [|c s IH]; [exact I|]. cbn [peekNonSpace]. destruct (isspace c); [|exists []; reflexivity].
  destruct (peekNonSpace s); auto. destruct IH as (p & ->). exists (c :: p). reflexivity.
Qed.
Lemma parseCheck_tail str s : match parseCheck str s with Ok r => exists p, s = p ++ r | Throw => True | _ => False end.
Proof.
  revert s. induction str as [|x str IH]; intros s; cbn [parseCheck]; [exists []; reflexivity|].
  destruct s as [|c s]; [exact I|]. destruct (c =? x); [|exact I]. specialize (IH s).
  destruct (parseCheck str s); auto. destruct IH as (p & ->). exists (c :: p). reflexivity.
Qed.
Lemma hexVal_lt c d : hexVal c = Some d -> d < 16.
Proof.
  unfold hexVal. destruct ((48 <=? c) && (c <=? 57)) eqn:A; [intros [= <-]; lia|].
  destruct ((65 <=? c) && (c <=? 70)) eqn:B; [intros [= <-]; lia|].
  destruct ((97 <=? c) && (c <=? 102)) eqn:C; [intros [= <-]; lia|discriminate].
Qed.
Lemma hex4_lt a b c d w : hex4 a b c d = Some w -> w < 0x10000.
Proof.
  unfold hex4. destruct (hexVal a) eqn:A, (hexVal b) eqn:B, (hexVal c) eqn:C, (hexVal d) eqn:D; try discriminate.
  apply hexVal_lt in A, B, C, D. intros [= <-]. lia.
Qed.
Lemma rawString_good : forall n s, (length s <= n)%nat -> good s (rawString s).
Proof.
  induction n as [|n IH]; intros [|x s] H; cbn [length] in H; try lia; [exact I..|]. cbn [rawString].
  assert (K : forall (p t : list N) (u : list N), x :: s = p ++ t -> p <> [] ->
    good (x :: s) (let! (l, r) := rawString t in Ok (u ++ l, r))).
  { intros p t u E Hp. assert (L : left_of (x :: s) t) by (exists p; auto). apply (good_left _ t); [exact L|].
    apply good_bind; [apply IH; apply left_length in L; cbn in L; lia|]. intros a r _ Hr. right. exact Hr. }
  destruct (x =? 34); [apply left_cons|]. destruct (x =? 92).
  - destruct s as [|e s]; [exact I|]. destruct (e =? 117).
    + destruct s as [|a [|b [|c [|d s]]]]; try exact I. destruct (hex4 a b c d) as [w|] eqn:Hx; [|exact I].
      apply hex4_lt in Hx. destruct (utf_roundtrip_lem false [w]) as (u & Eu & _). { repeat constructor. unfold wide_ok. lia. }
      rewrite Eu. cbn [obind]. apply (K [x; e; a; b; c; d]); [reflexivity|discriminate].
    + destruct (shortEscape e) as [y|]; [|exact I]. apply (K [x; e] s [y]); [reflexivity|discriminate].
  - apply (K [x] s [x]); [reflexivity|discriminate].
Qed.
Lemma collect_tail s : s = fst (collect s) ++ snd (collect s).
Proof.
  induction s as [|c s IH]; [reflexivity|]. cbn [collect]. destruct (stops c); [reflexivity|].
  destruct (collect s). cbn in *. congruence.
Qed.
Lemma parseS_undef l : match parseS 10 l with Ok _ => True | Undef => In 45%Z l | _ => False end.
Proof.
  unfold parseS. destruct l as [|c t]; [exact I|]. destruct (c =? 43)%Z; [exact I|]. destruct (Z.eqb_spec c 45) as [->|]; [|exact I].
  destruct (parseU s64 10 t) as [[ok n] rest]. destruct ok; [|exact I]. unfold signed. destruct (_ && _); cbn; auto.
Qed.
Lemma parseValue_good x s : match parseValue x s with
  | Ok (_, r) => exists p, s = p ++ r | Throw => True | Undef => In 45 (x :: s) | NoFuel => False end.
Proof.
  unfold parseValue. destruct s as [|c0 s0]; [exact I|]. remember (c0 :: s0) as s eqn:Es. clear Es c0 s0.
  assert (Q : match (if isspace x then peekNonSpace s else Ok s) with Ok r => exists p, s = p ++ r | Throw => True | _ => False end).
  { destruct (isspace x); [apply peekNonSpace_tail|exists []; reflexivity]. }
  destruct (if isspace x then peekNonSpace s else Ok s) as [s1| | |]; try contradiction; [|exact I]. cbn [obind].
  destruct Q as (p & ->). pose proof (collect_tail s1) as E. destruct (collect s1) as [l r]. cbn [fst snd] in E.
  assert (T : exists q, p ++ s1 = q ++ r) by (exists (p ++ l); rewrite E, app_assoc; reflexivity).
  destruct (_ && _); [|exact T].
  pose proof (parseS_undef (map Z.of_N ((if isspace x then [] else [x]) ++ l))) as U.
  destruct (parseS 10 _) as [[[ok z] rest]| | |]; try contradiction.
  - cbn [obind]. destruct (ok && _); [exact T|exact I].
  - cbn [obind]. apply in_map_iff in U as (y & Ey & Hy). assert (y = 45) by lia. subst y.
    apply in_app_or in Hy as [Hy|Hy].
    + destruct (isspace x); [contradiction|]. destruct Hy as [->|[]]. left. reflexivity.
    + right. apply in_or_app. right. rewrite E. apply in_or_app. auto.
Qed.

Lemma parse_good : forall f,
  (forall s, (2 * length s + 1 <= f)%nat -> good s (parse f s)) /\
  (forall c s m, (2 * length s + 2 <= f)%nat -> good (c :: s) (members f c s m)) /\
  (forall s l, (2 * length s + 2 <= f)%nat -> good s (elems f s l)).
Proof.
  induction f as [|f (IHp & IHm & IHe)]; [repeat split; intros; lia|]. split; [|split].
  - intros s Hf. cbn [parse]. apply good_bind; [apply nextToken_good|]. intros x t Ex Ht. right.
    pose proof (left_length _ _ Ht) as Lt.
    assert (HT : forall (v : json) r p, t = p ++ r -> good s (Ok (v, r))).
    { intros v r p E. destruct Ht as (q & -> & Hq). exists (q ++ p). split; [rewrite E, app_assoc; reflexivity|].
      destruct q; [congruence|discriminate]. }
    destruct (x =? 34).
    { apply (good_left _ t _ Ht). apply good_bind; [apply (rawString_good (length t)); lia|]. intros l r _ Hr. right. exact Hr. }
    destruct (x =? 123).
    { apply (good_left _ t _ Ht). apply good_bind; [apply nextNonSpace_good|]. intros c r E Hr.
      destruct (c =? 125); [right; exact Hr|]. right.
      assert (Hc : exists p, t = p ++ c :: r).
      { exact (nextNonSpace_in _ _ _ E). }
      pose proof (left_length _ _ Hr) as Lr. specialize (IHm c r [] ltac:(lia)).
      destruct Hc as (p & ->). destruct p as [|y p]; [exact IHm|].
      apply (good_left _ (c :: r)); [exists (y :: p); split; [reflexivity|discriminate]|exact IHm]. }
    destruct (x =? 91).
    { pose proof (peekNonSpace_tail t) as Q. destruct (peekNonSpace t) as [t1| | |]; try contradiction; [|exact I]. cbn [obind].
      destruct Q as (p & E). destruct t1 as [|c r]; [exact I|]. destruct (c =? 93).
      - apply (HT _ _ (p ++ [c])). rewrite E, <- app_assoc. reflexivity.
      - assert (L1 : left_of s (c :: r)).
        { destruct Ht as (q & -> & Hq). exists (q ++ p). split; [rewrite E, app_assoc; reflexivity|]. destruct q; [congruence|discriminate]. }
        apply (good_left _ _ _ L1). apply IHe. apply left_length in L1. lia. }
    destruct (x =? 116).
    { pose proof (parseCheck_tail [114; 117; 101] t) as Q. destruct (parseCheck _ t); try contradiction; [|exact I]. destruct Q as (p & E). exact (HT _ _ p E). }
    destruct (x =? 102).
    { pose proof (parseCheck_tail [97; 108; 115; 101] t) as Q. destruct (parseCheck _ t); try contradiction; [|exact I]. destruct Q as (p & E). exact (HT _ _ p E). }
    destruct (x =? 110).
    { pose proof (parseCheck_tail [117; 108; 108] t) as Q. destruct (parseCheck _ t); try contradiction; [|exact I]. destruct Q as (p & E). exact (HT _ _ p E). }
    pose proof (parseValue_good x t) as Q. destruct (parseValue x t) as [[v r]| | |]; try contradiction; [|exact I|].
    + destruct Q as (p & E). exact (HT _ _ p E).
    + destruct (nextToken_in _ _ _ Ex) as (p & ->). cbn. apply in_or_app. right. exact Q.
  - intros c s m Hf. cbn [members].
    assert (G : forall c' s', (c' = c /\ s' = s) \/ left_of s s' ->
      good (c :: s) (if c' =? 34 then
        let! (k, s) := rawString s' in
        let! (d, s) := nextNonSpace s in
        if d =? 58 then
          let! (v, s) := parse f s in
          let m := insertField k v m in
          let! (c, s) := nextNonSpace s in
          if c =? 44 then
            match s with [] => Throw | c :: s => members f c s m end
          else if c =? 125 then Ok (JObj m, s)
          else Throw
        else Throw
      else Throw)).
    { intros c' s' H. assert (L : left_of (c :: s) s'). { destruct H as [[_ ->]|H]; [apply left_cons|]. apply (left_trans _ s); [apply left_cons|exact H]. }
      destruct (c' =? 34); [|exact I]. apply (good_left _ _ _ L). pose proof (left_length _ _ L) as L0. cbn [length] in L0.
      apply good_bind; [apply (rawString_good (length s')); lia|]. intros k s1 _ H1. left. pose proof (left_length _ _ H1) as L1.
      apply good_bind; [apply nextNonSpace_good|]. intros d s2 _ H2. left. pose proof (left_length _ _ H2) as L2.
      destruct (d =? 58); [|exact I].
      apply good_bind; [apply IHp; lia|]. intros v s3 _ H3. left. pose proof (left_length _ _ H3) as L3. cbn zeta.
      apply good_bind; [apply nextNonSpace_good|]. intros e s4 _ H4. pose proof (left_length _ _ H4) as L4.
      destruct (e =? 44).
      - left. destruct s4 as [|y s4]; [exact I|]. apply IHm. cbn [length] in L4. lia.
      - right. destruct (e =? 125); [exact H4|exact I]. }
    destruct (isspace c).
    + pose proof (nextNonSpace_good s) as Q. destruct (nextNonSpace s) as [[c' s']| | |]; try contradiction; [|exact I|].
      * cbn [obind]. apply G. right. exact Q.
      * cbn. right. exact Q.
    + cbn [obind]. apply G. left. auto.
  - intros s l Hf. cbn [elems]. apply good_bind; [apply IHp; lia|]. intros v s1 _ H1. left. pose proof (left_length _ _ H1) as L1. cbn zeta.
    apply good_bind; [apply nextNonSpace_good|]. intros e s2 _ H2. pose proof (left_length _ _ H2) as L2.
    destruct (e =? 44); [left; apply IHe; lia|]. right. destruct (e =? 93); [exact H2|exact I].
Qed.
