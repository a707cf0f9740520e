(** Lemmas about the TextParser model. *)
From Coq Require Import ZArith ZifyBool.
From Verif Require Import Common TextParser_Spec TextParser_Model.
Local Open Scope Z_scope.
Definition getf (fs : list (nat * nat)) (n : nat) : nat * nat := nth (n - 1) fs (0, 0)%nat.

(** [st'] holds field [n] with text [t] *)
Definition holds (st : tp) (n : nat) (t : list Z) : Prop :=
  exists bg, getf (frags st) n = (bg, length t) /\ (n <= length (frags st))%nat /\
             (bg + length t <= length (data st))%nat /\ firstn (length t) (skipn bg (data st)) = t.

Definition result_ok (o : outcome (bool * list Z * tp)) (d0 : list Z) (st : tp) (is : list nat)
  (res : option (list (nat * list Z))) : Prop :=
  exists b src' st', o = Ok (b, src', st') /\
    (exists u, data st' = d0 ++ u) /\
    (length (frags st) <= length (frags st'))%nat /\
    (forall n, n <> 0%nat -> ~ In n is -> getf (frags st') n = getf (frags st) n) /\
    match res with
    | None => b = false
    | Some fs => b = true /\ forall n t, n <> 0%nat -> last_field fs n = Some t -> holds st' n t
    end.

(** ** Specification facts *)
Lemma last_field_gen fs n a :
  fold_left (fun a f => if (fst f =? n)%nat then Some (snd f) else a) fs a =
  match last_field fs n with Some x => Some x | None => a end.
Proof.
  unfold last_field. revert a; induction fs as [|f fs IH]; intros a; cbn [fold_left]; [reflexivity|].
  rewrite IH. rewrite (IH (if (fst f =? n)%nat then Some (snd f) else None)).
  destruct (fold_left _ fs None); [reflexivity|]. destruct (fst f =? n)%nat; reflexivity.
Qed.
Lemma last_field_cons f fs n :
  last_field (f :: fs) n = match last_field fs n with
                           | Some x => Some x | None => if (fst f =? n)%nat then Some (snd f) else None end.
Proof. unfold last_field at 1. cbn [fold_left]. apply last_field_gen. Qed.
Lemma last_field_none fs n : last_field fs n = None -> ~ In n (map fst fs).
Proof.
  induction fs as [|f fs IH]; [easy|]. rewrite last_field_cons. cbn [map In].
  destruct (last_field fs n); [easy|]. destruct (Nat.eqb_spec (fst f) n); [easy|]. intros _ [E|E]; [easy|]. now apply IH.
Qed.
Lemma first_some_ok {A} (f : nat -> option A) k : forall n x, first_some f n k = Some x -> exists i, (n <= i < n + k)%nat /\ f i = Some x /\ (forall j, (n <= j < i)%nat -> f j = None).
Proof.
  induction k as [|k IH]; intros n x H; cbn [first_some] in H; [easy|].
  destruct (f n) eqn:E.
  - inversion H; subst. exists n. split; [lia|]. split; [exact E|]. intros j Hj; lia.
  - destruct (IH _ _ H) as (i & Hi & Hf & Hl). exists i. split; [lia|]. split; [exact Hf|].
    intros j Hj. destruct (Nat.eq_dec j n) as [->|]; [exact E|]. apply Hl; lia.
Qed.
Lemma first_some_none {A} (f : nat -> option A) k : forall n, first_some f n k = None -> forall i, (n <= i < n + k)%nat -> f i = None.
Proof.
  induction k as [|k IH]; intros n H i Hi; cbn [first_some] in H; [lia|].
  destruct (f n) eqn:E; [easy|]. destruct (Nat.eq_dec i n) as [->|]; [exact E|]. apply (IH (S n)); [exact H|lia].
Qed.

Definition addf (n : nat) (t : list Z) (o : option (list (nat * list Z))) := option_map (cons (n, t)) o.
(** the search of a field of any characters, character by character *)
Fixpoint aster (n : nat) (lo : nat) (hi : option nat) (m : list Z -> option (list (nat * list Z))) (cnt : nat) (t s : list Z)
  : option (list (nat * list Z)) :=
  match (if (lo <=? cnt)%nat then addf n t (m s) else None) with
  | Some x => Some x
  | None => match s with
            | c :: s' => if under cnt hi then aster n lo hi m (S cnt) (t ++ [c]) s' else None
            | [] => None
            end
  end.
Lemma aster_first n lo hi m s : forall t,
  aster n lo hi m (length t) t s =
  first_some (fun i => addf n (firstn i (t ++ s)) (m (skipn i (t ++ s))))
    (Nat.max lo (length t)) (S (match hi with Some h => Nat.min h (length (t ++ s)) | None => length (t ++ s) end) - Nat.max lo (length t)) \/
  (exists h, hi = Some h /\ (h < length t)%nat).
Proof.
  induction s as [|c s IH]; intros t.
  - destruct hi as [h|]; [destruct (Nat.le_gt_cases (length t) h); [|right; exists h; auto]|]; left; cbn [aster].
    + rewrite app_nil_r, Nat.min_r by lia. destruct (Nat.leb_spec lo (length t)).
      * rewrite Nat.max_r by lia. replace (S (length t) - length t)%nat with 1%nat by lia. cbn [first_some].
        rewrite firstn_all, skipn_all. destruct (addf n t (m [])); reflexivity.
      * rewrite Nat.max_l by lia. replace (S (length t) - lo)%nat with 0%nat by lia. reflexivity.
    + rewrite app_nil_r. destruct (Nat.leb_spec lo (length t)).
      * rewrite Nat.max_r by lia. replace (S (length t) - length t)%nat with 1%nat by lia. cbn [first_some].
        rewrite firstn_all, skipn_all. destruct (addf n t (m [])); reflexivity.
      * rewrite Nat.max_l by lia. replace (S (length t) - lo)%nat with 0%nat by lia. reflexivity.
  - destruct hi as [h|].
    + destruct (Nat.le_gt_cases (length t) h); [|right; exists h; auto]. left. cbn [aster under].
      specialize (IH (t ++ [c])). rewrite <- app_assoc in IH. cbn [app] in IH.
      rewrite app_length in IH. cbn [length] in IH. rewrite Nat.add_1_r in IH.
      assert (L : length (t ++ c :: s) = (length t + S (length s))%nat) by (rewrite app_length; reflexivity).
      rewrite L in *.
      destruct (Nat.ltb_spec (length t) h).
      * destruct IH as [IH|(h' & E & B)]; [|inversion E; subst; lia]. rewrite IH.
        destruct (Nat.leb_spec lo (length t)).
        -- rewrite (Nat.max_r lo (length t)), (Nat.max_r lo (S (length t))) by lia.
           replace (S (Nat.min h (length t + S (length s))) - length t)%nat
             with (S (S (Nat.min h (length t + S (length s))) - S (length t)))%nat by lia.
           cbn [first_some]. rewrite firstn_app, firstn_all, skipn_app, skipn_all, Nat.sub_diag. cbn [firstn skipn app].
           rewrite app_nil_r. reflexivity.
        -- rewrite (Nat.max_l lo (length t)) by lia.
           replace (Nat.max lo (S (length t))) with lo by lia. reflexivity.
      * destruct (Nat.leb_spec lo (length t)).
        -- rewrite Nat.max_r by lia.
           replace (S (Nat.min h (length t + S (length s))) - length t)%nat with 1%nat by lia. cbn [first_some].
           rewrite firstn_app, firstn_all, skipn_app, skipn_all, Nat.sub_diag. cbn [firstn skipn app].
           rewrite app_nil_r. reflexivity.
        -- rewrite Nat.max_l by lia.
           replace (S (Nat.min h (length t + S (length s))) - lo)%nat with 0%nat by lia. reflexivity.
    + left. cbn [aster under].
      specialize (IH (t ++ [c])). rewrite <- app_assoc in IH. cbn [app] in IH.
      rewrite app_length in IH. cbn [length] in IH. rewrite Nat.add_1_r in IH.
      assert (L : length (t ++ c :: s) = (length t + S (length s))%nat) by (rewrite app_length; reflexivity).
      rewrite L in *.
      destruct IH as [IH|(h' & E & B)]; [|easy]. rewrite IH.
      destruct (Nat.leb_spec lo (length t)).
      * rewrite (Nat.max_r lo (length t)), (Nat.max_r lo (S (length t))) by lia.
        replace (S (length t + S (length s)) - length t)%nat
          with (S (S (length t + S (length s)) - S (length t)))%nat by lia.
        cbn [first_some]. rewrite firstn_app, firstn_all, skipn_app, skipn_all, Nat.sub_diag. cbn [firstn skipn app].
        rewrite app_nil_r. reflexivity.
      * rewrite (Nat.max_l lo (length t)) by lia.
        replace (Nat.max lo (S (length t))) with lo by lia. reflexivity.
Qed.
Lemma smatch_any k l n cl r s : k = Any \/ k = Star ->
  smatch (Field k l n cl :: r) s = aster (number n) (lo l) (hi l) (smatch r) 0 [] s.
Proof.
  intros Hk. destruct (aster_first (number n) (lo l) (hi l) (smatch r) s []) as [E|(h & _ & B)]; [|cbn in B; lia].
  cbn [length app] in E. rewrite Nat.max_0_r in E. rewrite E. destruct Hk as [-> | ->]; reflexivity.
Qed.
Lemma smatch_take k l n cl r s : k <> Any -> k <> Star ->
  smatch (Field k l n cl :: r) s =
  match take k (hi l) s with
  | Some (t, s') => if (lo l <=? length t)%nat then addf (number n) t (smatch r s') else None
  | None => None
  end.
Proof. intros Ha Hs. destruct k; try easy; reflexivity. Qed.

Lemma smatch_ids is : forall s fs, smatch is s = Some fs -> wf is -> map fst fs = ids is.
Proof.
  induction is as [|i r IH]; intros s fs H W.
  - cbn in H. destruct s; [|easy]. now inversion H.
  - assert (Q : forall f n t s', addf n t (smatch r s') = Some f -> wf r -> map fst f = n :: ids r).
    { intros f n t s' E Wr. destruct (smatch r s') eqn:Er; [|easy]. inversion E; subst. cbn. f_equal. eapply IH; eassumption. }
    destruct i as [c| | |k l n cl|].
    + cbn in H. destruct s as [|d s]; [easy|]. destruct (d =? c); [|easy]. eapply IH; eassumption.
    + eapply IH; eassumption.
    + cbn in H. destruct s as [|d s]; [easy|]. destruct (blank d); [|easy]. eapply IH; eassumption.
    + destruct W as (Wk & Wl & Wn & Wc & Wr). change (ids (Field k l n cl :: r)) with (number n :: ids r).
      assert (D : (k = Any \/ k = Star) \/ (k <> Any /\ k <> Star)) by (destruct k; auto; right; split; easy).
      destruct D as [D|(D1 & D2)].
      * assert (E : exists (f : nat -> option _) a b, smatch (Field k l n cl :: r) s =
          first_some (fun i => addf (number n) (firstn i s) (smatch r (skipn i s))) a b) by
          (exists (fun _ => @None nat), (lo l), (S match hi l with Some m => Nat.min m (length s) | None => length s end - lo l)%nat;
           destruct D as [-> | ->]; reflexivity).
        destruct E as (_ & a & b & E). rewrite E in H. apply first_some_ok in H as (i & _ & Hf & _). eapply Q; eassumption.
      * rewrite smatch_take in H by assumption. destruct (take k (hi l) s) as [(t, s')|]; [|easy].
        destruct (lo l <=? length t)%nat; [|easy]. eapply Q; eassumption.
    + cbn in H, W. subst r. now inversion H.
Qed.

(** ** Small functions *)
Lemma munch_takeWhile (f g : Z -> bool) (E : forall c, f c = g c) s : forall h, takeWhileMax f h s = munch g h s.
Proof.
  induction s as [|c s IH]; intros h; [reflexivity|]. cbn [takeWhileMax munch].
  destruct h as [[|m]|]; cbn [under Nat.ltb Nat.leb andb]; [reflexivity| |]; rewrite E, IH; destruct (g c); reflexivity.
Qed.
Lemma munch_app f h s : forall a r, munch f h s = (a, r) -> s = a ++ r.
Proof.
  revert h; induction s as [|c s IH]; intros h a r H; cbn [munch] in H; [now inversion H|].
  destruct h as [[|m]|]; [now inversion H| |]; (destruct (f c); [|now inversion H]);
    destruct (munch f _ s) as [a' r'] eqn:E; inversion H; subst; cbn; f_equal; eapply IH; exact E.
Qed.
Lemma skipSet_munch f s : snd (skipSet f s) = snd (munch f None s).
Proof.
  induction s as [|c s IH]; [reflexivity|]. cbn [skipSet munch option_map]. destruct (f c); [|reflexivity].
  rewrite IH. destruct (munch f None s); reflexivity.
Qed.
Lemma skipSet_len f s : (length (snd (skipSet f s)) <= length s)%nat.
Proof. induction s as [|c s IH]; [cbn; lia|]. cbn [skipSet]. destruct (f c); cbn [snd length] in *; lia. Qed.
Lemma takeDigits ds rest : Forall (fun c => digit c = true) ds ->
  match rest with c :: _ => digit c = false | [] => True end ->
  takeWhileMax isDigit None (ds ++ rest) = (ds, rest).
Proof.
  intros F H. induction F as [|c ds Hc F IH]; cbn [app takeWhileMax].
  - destruct rest as [|c rest]; [reflexivity|]. cbn. unfold digit in H. unfold isDigit. now rewrite H.
  - unfold isDigit at 1. unfold digit in Hc. rewrite Hc. cbn [under andb dec option_map]. now rewrite IH.
Qed.
Lemma getf_setFrag_same st n fr : n <> 0%nat -> getf (frags (setFrag st n fr)) n = fr.
Proof.
  intros H. unfold getf, setFrag. cbn [frags]. apply nth_upd_eq.
  destruct (Nat.leb_spec (length (frags st)) (n - 1)); [|lia]. rewrite app_length, repeat_length. lia.
Qed.
Lemma setFrag_len st n fr : n <> 0%nat ->
  (length (frags st) <= length (frags (setFrag st n fr)))%nat /\ (n <= length (frags (setFrag st n fr)))%nat.
Proof.
  intros H. unfold setFrag. cbn [frags]. rewrite upd_length.
  destruct (Nat.leb_spec (length (frags st)) (n - 1)); [|lia]. rewrite app_length, repeat_length. lia.
Qed.
Lemma getf_setFrag_other st n m fr : n <> 0%nat -> m <> 0%nat -> m <> n -> getf (frags (setFrag st n fr)) m = getf (frags st) m.
Proof.
  intros H Hm D. unfold getf, setFrag. cbn [frags]. rewrite nth_upd_ne by lia.
  destruct (Nat.leb_spec (length (frags st)) (n - 1)); [|reflexivity].
  destruct (Nat.lt_ge_cases (m - 1) (length (frags st))).
  - rewrite app_nth1 by lia. reflexivity.
  - rewrite app_nth2 by lia. rewrite (nth_overflow (frags st)) by lia.
    destruct (nth_in_or_default (m - 1 - length (frags st)) (repeat (0, 0)%nat (n - length (frags st))) (0, 0)%nat) as [I|I];
      [|exact I]. now apply repeat_spec in I.
Qed.

Section Main.
  Variable nl : list Z.
  Notation parse := (parse nl []).
  Notation parseArg := (parseArg nl []).

  Definition P (r : list item) : Prop := forall src st fuel,
    (4 * length (pattern r) + length src < fuel)%nat ->
    result_ok (parse fuel (pattern r) src st) (data st) st (ids r) (smatch r src).

  (** the text after the body of a field *)
  Definition tailText (n : list Z) (cl : bool) (r : list item) : list Z :=
    n ++ (if cl then [37] else []) ++ pattern r.
  Definition closedOk (cl : bool) (r : list item) : Prop :=
    cl = false -> match pattern r with c :: _ => digit c = false /\ c <> 37 | [] => True end.

  Lemma digit_fragId n : fragId n = number n.
  Proof. reflexivity. Qed.

  Lemma arg_digits f n cl r src st ss : numeral n -> closedOk cl r -> defAst ss = false ->
    parseArg (S f) (tailText n cl r) src st ss =
    if (number n =? 0)%nat then let! st := eraseFrom st (dataBeg ss) in parse f (pattern r) src st
    else
      let st := setFrag st (number n) (dataBeg ss, (length (data st) - dataBeg ss)%nat) in
      let! (res, src, st) := parse f (pattern r) src st in
      Ok (res, src, if res : bool then st else setFrag st (number n) (0%nat, 0%nat)).
  Proof.
    intros [N D] C A. unfold tailText.
    assert (T : takeWhileMax isDigit None (n ++ (if cl then [37] else []) ++ pattern r) =
                (n, (if cl then [37] else []) ++ pattern r)).
    { apply takeDigits; [exact D|]. destruct cl; [reflexivity|]. specialize (C eq_refl). cbn [app].
      destruct (pattern r); [exact I|apply C]. }
    assert (R : match (if cl then [37] else []) ++ pattern r with
                | c :: r' => if c =? 37 then r' else (if cl then [37] else []) ++ pattern r
                | [] => (if cl then [37] else []) ++ pattern r end = pattern r).
    { destruct cl; [reflexivity|]. specialize (C eq_refl). cbn [app]. destruct (pattern r) as [|c q]; [reflexivity|].
      destruct C as [_ C]. destruct (Z.eqb_spec c 37); [contradiction|reflexivity]. }
    destruct n as [|d n]; [easy|]. cbn [app] in *. cbn [TextParser_Model.parseArg].
    apply Forall_cons_iff in D as [Dd D].
    assert (B : isDigit d = true) by exact Dd. unfold digit in Dd.
    replace (d =? 60) with false by lia. replace (d =? 124) with false by lia. replace (d =? 62) with false by lia.
    replace (d =? 91) with false by lia. replace (d =? 40) with false by lia. replace (d =? 42) with false by lia.
    replace (d =? 39) with false by lia. replace (d =? 113) with false by lia. replace (d =? 37) with false by lia.
    cbn [orb]. rewrite B, A, T, R. reflexivity.
  Qed.

  Lemma result_ok_weaken o d0 d1 st st1 is is' res :
    result_ok o d1 st1 is res -> (exists u, d1 = d0 ++ u) ->
    (length (frags st) <= length (frags st1))%nat ->
    (forall n, n <> 0%nat -> ~ In n is' -> ~ In n is /\ getf (frags st1) n = getf (frags st) n) ->
    result_ok o d0 st is' res.
  Proof.
    intros (b & s' & st' & E & (u & Hu) & L & F & R) (w & Hw) L' F'.
    exists b, s', st'. split; [exact E|]. split; [exists (w ++ u); rewrite Hu, Hw; now rewrite app_assoc|].
    split; [lia|]. split; [|exact R]. intros n N I. destruct (F' n N I) as [A B]. now rewrite F.
  Qed.

  (** the end of a field: store the text and go on *)
  Lemma finish r n cl (W : wf r) (IH : P r) : numeral n -> closedOk cl r ->
    forall fuel src st ss d0 t t',
    (4 * length (tailText n cl r) + length src <= fuel)%nat ->
    defAst ss = false -> dataBeg ss = length d0 -> data st = d0 ++ t' -> (number n <> 0%nat -> t' = t) ->
    result_ok (parseArg fuel (tailText n cl r) src st ss) (if (number n =? 0)%nat then d0 else d0 ++ t) st
      (number n :: ids r) (addf (number n) t (smatch r src)).
  Proof.
    intros Hn Hc fuel src st ss d0 t t' Hf Ha Hb Hd Ht.
    assert (Ln : (1 <= length n)%nat) by (destruct Hn as [Hn _]; destruct n; [contradiction Hn; reflexivity|cbn; lia]).
    assert (Lt : length (tailText n cl r) = (length n + (length (if cl then [37%Z] else []) + length (pattern r)))%nat)
      by (unfold tailText; now rewrite !app_length).
    destruct fuel as [|f]; [lia|]. rewrite arg_digits by assumption.
    destruct (Nat.eqb_spec (number n) 0) as [Z0|Z0].
    - unfold eraseFrom. rewrite Hd, Hb, app_length.
      destruct (Nat.ltb_spec (length d0 + length t') (length d0)); [lia|]. cbn [obind].
      rewrite firstn_app, firstn_all, Nat.sub_diag. cbn [firstn]. rewrite app_nil_r.
      specialize (IH src (setData st d0) f ltac:(lia)).
      destruct IH as (b & s' & st' & E & (u & Hu) & L & F & R). cbn [data setData frags] in *.
      exists b, s', st'. split; [exact E|]. split; [eauto|]. split; [exact L|].
      split; [intros m M I; apply F; [exact M|intros J; apply I; now right]|].
      destruct (smatch r src) as [fs|] eqn:Es; cbn [addf option_map]; [|exact R].
      destruct R as [-> R]. split; [reflexivity|]. intros m x M. rewrite last_field_cons.
      destruct (last_field fs m) eqn:El; [intros Q; apply R; congruence|]. cbn [fst].
      rewrite Z0. destruct (Nat.eqb_spec 0 m); [lia|easy].
    - specialize (Ht Z0). subst t'. cbn zeta.
      replace (length (data st) - dataBeg ss)%nat with (length t) by (rewrite Hd, Hb, app_length; lia).
      set (st1 := setFrag st (number n) (dataBeg ss, length t)).
      specialize (IH src st1 f ltac:(lia)).
      destruct IH as (b & s' & st' & E & (u & Hu) & L & F & R). rewrite E. cbn [obind].
      assert (D1 : data st1 = d0 ++ t) by exact Hd. rewrite D1 in Hu.
      destruct (setFrag_len st (number n) (dataBeg ss, length t) Z0) as [L1 L2]. fold st1 in L1, L2.
      destruct (smatch r src) as [fs|] eqn:Es; cbn [addf option_map].
      + destruct R as [-> R]. exists true, s', st'. split; [reflexivity|]. split; [eauto|]. split; [lia|].
        split.
        * intros m M I. rewrite F; [|exact M|intros J; apply I; now right].
          apply getf_setFrag_other; [exact Z0|exact M|]. intros ->. apply I; now left.
        * split; [reflexivity|]. intros m x M. rewrite last_field_cons. cbn [fst snd].
          destruct (last_field fs m) eqn:El; [intros Q; apply R; congruence|].
          destruct (Nat.eqb_spec (number n) m) as [<-|]; [|easy]. intros Q; inversion Q; subst x.
          exists (length d0).
          assert (G : getf (frags st') (number n) = (length d0, length t)).
          { rewrite F; [unfold st1; rewrite getf_setFrag_same by exact Z0; now rewrite Hb|exact Z0|].
            rewrite <- (smatch_ids r src fs Es W). now apply last_field_none. }
          split; [exact G|]. split; [lia|]. rewrite Hu, <- app_assoc, !app_length. split; [lia|].
          rewrite skipn_app, skipn_all, Nat.sub_diag. cbn [skipn app].
          rewrite firstn_app, firstn_all, Nat.sub_diag. cbn [firstn]. now rewrite app_nil_r.
      + subst b. exists false, s', (setFrag st' (number n) (0%nat, 0%nat)). split; [reflexivity|].
        destruct (setFrag_len st' (number n) (0, 0)%nat Z0) as [L3 L4].
        split; [eexists; exact Hu|]. split; [lia|].
        split; [|reflexivity]. intros m M I.
        assert (Dm : m <> number n) by (intros ->; apply I; now left).
        rewrite getf_setFrag_other by assumption. rewrite F; [|exact M|intros J; apply I; now right].
        now apply getf_setFrag_other.
  Qed.

  Lemma enter_S f pat src st ss : enter nl [] (S f) pat src st ss =
    let pos := length (data st) in
    let! (ok, _, st') := parseArg f pat src st ss in
    if ok : bool then Ok (true, st')
    else if (pos <? length (data st'))%nat then let! st' := eraseFrom st' pos in Ok (false, st')
    else Ok (false, st').
  Proof. reflexivity. Qed.
  Lemma asterix_S f cnt pat src st ss : parseAsterix nl [] (S f) cnt pat src st ss =
    match src with
    | c :: src' =>
        let! (ok, st) := (if (rmin ss <=? cnt)%nat then enter nl [] f pat src st ss else Ok (false, st)) in
        if ok : bool then Ok (true, src, st)
        else if under cnt (rmax ss) then parseAsterix nl [] f (S cnt) pat src' (addData st c) ss
        else Ok (false, src, st)
    | [] => if (cnt <? rmin ss)%nat then Ok (false, src, st) else parseArg f pat src st ss
    end.
  Proof. reflexivity. Qed.

  (** the search *)
  Lemma search r n cl (W : wf r) (IH : P r) : numeral n -> closedOk cl r ->
    forall src fuel cnt st ss d0 t t',
    (4 * length (tailText n cl r) + length src + 2 <= fuel)%nat ->
    defAst ss = false -> dataBeg ss = length d0 -> data st = d0 ++ t' -> (number n <> 0%nat -> t' = t) ->
    length t = cnt ->
    result_ok (parseAsterix nl [] fuel cnt (tailText n cl r) src st ss) d0 st
      (number n :: ids r) (aster (number n) (rmin ss) (rmax ss) (smatch r) cnt t src).
  Proof.
    intros Hn Hc. induction src as [|c src IHs]; intros fuel cnt st ss d0 t t' Hf Ha Hb Hd Ht Hl; cbn [length] in Hf.
    - destruct fuel as [|f]; [lia|]. rewrite asterix_S. cbn [aster].
      destruct (Nat.ltb_spec cnt (rmin ss)); destruct (Nat.leb_spec (rmin ss) cnt); try lia.
      + exists false, [], st. split; [reflexivity|]. split; [eauto|]. split; [lia|]. split; reflexivity.
      + pose proof (finish r n cl W IH Hn Hc f [] st ss d0 t t' ltac:(cbn [length]; lia) Ha Hb Hd Ht) as Q.
        destruct (addf (number n) t (smatch r [])) eqn:Ea;
          (eapply result_ok_weaken; [exact Q| |lia|auto]);
          (destruct (number n =? 0)%nat; [exists []; now rewrite app_nil_r|eauto]).
    - destruct fuel as [|f]; [lia|]. rewrite asterix_S. cbn [aster].
      assert (Step : forall st1 t1, data st1 = d0 ++ t1 -> (number n <> 0%nat -> t1 = t) ->
        (length (frags st) <= length (frags st1))%nat ->
        (forall m, m <> 0%nat -> ~ In m (number n :: ids r) -> getf (frags st1) m = getf (frags st) m) ->
        result_ok (if under cnt (rmax ss) then parseAsterix nl [] f (S cnt) (tailText n cl r) src (addData st1 c) ss
                   else Ok (false, c :: src, st1)) d0 st (number n :: ids r)
          (if under cnt (rmax ss) then aster (number n) (rmin ss) (rmax ss) (smatch r) (S cnt) (t ++ [c]) src else None)).
      { intros st1 t1 D1 T1 L1 F1. destruct (under cnt (rmax ss)).
        - pose proof (IHs f (S cnt) (addData st1 c) ss d0 (t ++ [c]) (t1 ++ [c])) as Q.
          eapply result_ok_weaken; [apply Q| | |]; try assumption.
          + lia.
          + cbn. rewrite D1. now rewrite app_assoc.
          + intros Hz. now rewrite T1.
          + rewrite app_length. cbn [length]. lia.
          + exists []. now rewrite app_nil_r.
          + intros m M I. split; [exact I|]. apply F1; assumption.
        - exists false, (c :: src), st1. split; [reflexivity|]. split; [eauto|]. split; [exact L1|]. split; [exact F1|reflexivity]. }
      destruct (Nat.leb_spec (rmin ss) cnt) as [Hr|Hr].
      + destruct f as [|f']; [lia|]. rewrite enter_S. cbn zeta.
        pose proof (finish r n cl W IH Hn Hc f' (c :: src) st ss d0 t t' ltac:(cbn [length]; lia) Ha Hb Hd Ht) as Q.
        destruct Q as (b & s' & st' & E & (u & Hu) & L & F & R). rewrite E. cbn [obind].
        destruct (addf (number n) t (smatch r (c :: src))) as [fs|] eqn:Ea.
        * destruct R as [-> R]. cbn [obind]. exists true, (c :: src), st'. split; [reflexivity|].
          split. { rewrite Hu. destruct (number n =? 0)%nat; [eauto|]. exists (t ++ u). now rewrite app_assoc. }
          split; [exact L|]. split; [exact F|]. split; [reflexivity|exact R].
        * subst b.
          assert (Q : exists st1 t1, (if (length (data st) <? length (data st'))%nat
                      then let! st'0 := eraseFrom st' (length (data st)) in Ok (false, st'0) else Ok (false, st')) = Ok (false, st1) /\
                      frags st1 = frags st' /\ data st1 = d0 ++ t1 /\ (number n <> 0%nat -> t1 = t)).
          { destruct (Nat.ltb_spec (length (data st)) (length (data st'))) as [Hlt|Hlt].
            - unfold eraseFrom. destruct (Nat.ltb_spec (length (data st')) (length (data st))); [lia|]. cbn [obind].
              destruct (Nat.eqb_spec (number n) 0) as [Z0|Z0].
              + exists (setData st' (firstn (length (data st)) (data st'))), (firstn (length t') u).
                split; [reflexivity|]. split; [reflexivity|]. split; [|easy]. cbn. rewrite Hd, Hu, app_length.
                rewrite firstn_app. rewrite firstn_all2 by lia. f_equal. f_equal. lia.
              + exists (setData st' (firstn (length (data st)) (data st'))), t.
                split; [reflexivity|]. split; [reflexivity|]. split; [|easy]. cbn. specialize (Ht Z0). subst t'. rewrite Hd, Hu.
                rewrite firstn_app, Nat.sub_diag, firstn_all. cbn [firstn]. apply app_nil_r.
            - exists st'. destruct (Nat.eqb_spec (number n) 0) as [Z0|Z0].
              + exists u. repeat split; [exact Hu|easy].
              + exists t. split; [reflexivity|]. split; [reflexivity|]. split; [|easy]. specialize (Ht Z0). subst t'.
                rewrite Hd, Hu in Hlt. rewrite Hu. rewrite (app_length (d0 ++ t) u) in Hlt.
                destruct u; [apply app_nil_r|cbn in Hlt; lia]. }
          destruct Q as (st1 & t1 & E1 & E2 & E3 & E4). rewrite E1. cbn [obind].
          apply (Step st1 t1 E3 E4); rewrite E2; assumption.
      + cbn [obind]. apply (Step st t' Hd Ht); auto.
  Qed.

  Lemma number_ok neg base dig st src max (E : forall c, checkNumber c base = dig c)
    (S_ : forall c, sign c = true -> dig c = false) :
    match parseNumber src max neg base st with
    | (ok, _, src', st') =>
        match munch_number neg dig max src with
        | Some (t, s') => ok = true /\ src' = s' /\ st' = appData st t
        | None => ok = false /\ exists u, st' = appData st u
        end
    end.
  Proof.
    assert (N0 : exists u, st = appData st u).
    { exists []. unfold appData, setData. rewrite app_nil_r. now destruct st. }
    unfold parseNumber, munch_number.
    destruct max as [[|m]|]; cbn [under negb Nat.ltb Nat.leb].
    - destruct src as [|c t]; cbn [munch]; split; auto.
    - destruct src as [|c t]; [cbn [munch]; split; auto|]. unfold isSign. fold (sign c).
      destruct (sign c) eqn:Sc; destruct neg; cbn [andb negb].
      + cbn [dec option_map pred under]. destruct m as [|m]; cbn [Nat.ltb Nat.leb negb].
        * destruct t; cbn [munch]; (split; [reflexivity|exists [c]; reflexivity]).
        * destruct t as [|d t]; cbn [munch]; [split; [reflexivity|exists [c]; reflexivity]|].
          rewrite E. destruct (dig d); [|split; [reflexivity|exists [c]; reflexivity]].
          cbn [dec option_map pred]. rewrite (munch_takeWhile _ dig) by exact E.
          destruct (munch dig (Some m) t) as [a r] eqn:Em. split; [reflexivity|]. split; [reflexivity|].
          unfold appData, addData, setData. cbn. f_equal. rewrite <- !app_assoc. reflexivity.
      + cbn [munch]. rewrite (S_ c Sc). split; auto.
      + cbn [under munch Nat.ltb Nat.leb negb]. rewrite E. destruct (dig c); [|split; auto]. cbn [dec option_map pred].
        rewrite (munch_takeWhile _ dig) by exact E.
        destruct (munch dig (Some m) t) as [a r] eqn:Em. split; [reflexivity|]. split; [reflexivity|].
        unfold appData, addData, setData. cbn. f_equal. rewrite <- !app_assoc. reflexivity.
      + cbn [under munch Nat.ltb Nat.leb negb]. rewrite E. destruct (dig c); [|split; auto]. cbn [dec option_map pred].
        rewrite (munch_takeWhile _ dig) by exact E.
        destruct (munch dig (Some m) t) as [a r] eqn:Em. split; [reflexivity|]. split; [reflexivity|].
        unfold appData, addData, setData. cbn. f_equal. rewrite <- !app_assoc. reflexivity.
    - destruct src as [|c t]; [cbn [munch]; split; auto|]. unfold isSign. fold (sign c).
      destruct (sign c) eqn:Sc; destruct neg; cbn [andb negb].
      + cbn [dec option_map under negb].
        destruct t as [|d t]; cbn [munch]; [split; [reflexivity|exists [c]; reflexivity]|].
        rewrite E. destruct (dig d); [|split; [reflexivity|exists [c]; reflexivity]].
        cbn [option_map]. rewrite (munch_takeWhile _ dig) by exact E.
        destruct (munch dig None t) as [a r] eqn:Em. split; [reflexivity|]. split; [reflexivity|].
        unfold appData, addData, setData. cbn. f_equal. rewrite <- !app_assoc. reflexivity.
      + cbn [munch]. rewrite (S_ c Sc). split; auto.
      + cbn [under munch negb]. rewrite E. destruct (dig c); [|split; auto]. cbn [dec option_map].
        rewrite (munch_takeWhile _ dig) by exact E.
        destruct (munch dig None t) as [a r] eqn:Em. split; [reflexivity|]. split; [reflexivity|].
        unfold appData, addData, setData. cbn. f_equal. rewrite <- !app_assoc. reflexivity.
      + cbn [under munch negb]. rewrite E. destruct (dig c); [|split; auto]. cbn [dec option_map].
        rewrite (munch_takeWhile _ dig) by exact E.
        destruct (munch dig None t) as [a r] eqn:Em. split; [reflexivity|]. split; [reflexivity|].
        unfold appData, addData, setData. cbn. f_equal. rewrite <- !app_assoc. reflexivity.
  Qed.
  Lemma ident_ok st src max :
    match parseIdentifier src max st with
    | (ok, src', st') =>
        match munch_ident max src with
        | Some (t, s') => ok = true /\ src' = s' /\ st' = appData st t
        | None => ok = false /\ exists u, st' = appData st u
        end
    end.
  Proof.
    assert (N0 : exists u, st = appData st u).
    { exists []. unfold appData, setData. rewrite app_nil_r. now destruct st. }
    assert (El : forall c, isAlpha c = letter c) by reflexivity.
    assert (Ed : forall c, isAlpha c || isDigit c = letter c || digit c) by reflexivity.
    unfold parseIdentifier, munch_ident. destruct src as [|c t]; [split; auto|]. rewrite El.
    destruct (letter c) eqn:L; [|rewrite andb_false_r; split; auto]. rewrite andb_true_r.
    destruct max as [[|m]|]; cbn [under Nat.ltb Nat.leb munch]; [split; auto| |]; rewrite L; cbn [orb dec option_map pred].
    - rewrite (munch_takeWhile _ _ Ed). destruct (munch _ (Some m) t) as [a r]. split; [reflexivity|]. split; [reflexivity|].
      unfold appData, addData, setData. cbn. f_equal. rewrite <- !app_assoc. reflexivity.
    - rewrite (munch_takeWhile _ _ Ed). destruct (munch _ None t) as [a r]. split; [reflexivity|]. split; [reflexivity|].
      unfold appData, addData, setData. cbn. f_equal. rewrite <- !app_assoc. reflexivity.
  Qed.

  Lemma munch_number_len neg dig max src t s : munch_number neg dig max src = Some (t, s) -> (length s <= length src)%nat.
  Proof.
    unfold munch_number. intros H.
    assert (Q : forall h s0 x, (match munch dig h s0 with ([], _) => None | (a, r) => Some (x ++ a, r) end) = Some (t, s) ->
            (length s <= length s0)%nat).
    { intros h s0 x Hm. destruct (munch dig h s0) as [a r] eqn:E. apply munch_app in E. subst s0. rewrite app_length.
      destruct a; [easy|]. inversion Hm; subst. lia. }
    destruct src as [|c src]; [destruct max as [[|m]|]; now apply Q in H|].
    destruct max as [[|m]|]; [now apply Q in H| |];
      (destruct (sign c && neg); apply Q in H; cbn [length] in *; lia).
  Qed.
  Lemma munch_ident_len max src t s : munch_ident max src = Some (t, s) -> (length s <= length src)%nat.
  Proof.
    unfold munch_ident. destruct src as [|c src]; [easy|]. destruct (letter c); [|easy].
    destruct (munch _ max (c :: src)) as [a r] eqn:E. apply munch_app in E. rewrite E, app_length.
    destruct a; intros H; inversion H; subst. lia.
  Qed.

  Lemma arg_custom f command pat src st ss :
    command = 100 \/ command = 117 \/ command = 120 \/ command = 111 \/ command = 105 ->
    parseArg (S (S f)) (command :: pat) src st ss =
    let '(ok, src', st') :=
      (if command =? 105 then parseIdentifier src (rmax ss) st
       else let '(ok, _, s, x) := parseNumber src (rmax ss) (negb (command =? 117))
              (if command =? 120 then 16 else if command =? 111 then 8 else 10) st in (ok, s, x)) in
    if negb ok then Ok (false, src', st')
    else if (length (data st') - length (data st) <? rmin ss)%nat then Ok (false, src', st')
    else parseArg f pat src' st' (noAst ss).
  Proof.
    intros [-> |[-> |[-> |[-> | ->]]]]; cbn [TextParser_Model.parseArg handleCustomPatterns]; cbn [Z.eqb Pos.eqb orb isDigit negb andb Z.leb Z.compare Pos.compare Pos.compare_cont];
      change (rmax (noAst ss)) with (rmax ss); change (rmin (noAst ss)) with (rmin ss);
      try (destruct (parseNumber src (rmax ss) _ _ st) as [[[ok m] s] x]; reflexivity).
    destruct (parseIdentifier src (rmax ss) st) as [[ok s] x]; reflexivity.
  Qed.

  Lemma taken r n cl (W : wf r) (IH : P r) : numeral n -> closedOk cl r ->
    forall f (src : list Z) (st : tp) ss t st' (tk : option (list Z * list Z)),
    match tk with
    | Some (t', s') => (length s' <= length src)%nat /\ st' = appData st t' /\ t = t'
    | None => exists u, st' = appData st u
    end ->
    (4 * length (tailText n cl r) + length src <= f)%nat -> dataBeg ss = length (data st) ->
    forall x, result_ok
      (match tk with
       | Some (_, s') => if (length (data st') - length (data st) <? rmin ss)%nat then Ok (false, s', st')
                         else parseArg f (tailText n cl r) s' st' (noAst ss)
       | None => Ok (false, x, st')
       end) (data st) st (number n :: ids r)
      (match tk with
       | Some (t, s') => if (rmin ss <=? length t)%nat then addf (number n) t (smatch r s') else None
       | None => None
       end).
  Proof.
    intros Hn Hc f src st ss t st' tk H Hf Hb x. destruct tk as [(t', s')|].
    - destruct H as (Hl & -> & ->). unfold appData. cbn [data setData]. rewrite app_length.
      replace (length (data st) + length t' - length (data st))%nat with (length t') by lia.
      destruct (Nat.ltb_spec (length t') (rmin ss)); destruct (Nat.leb_spec (rmin ss) (length t')); try lia.
      + exists false, s', (setData st (data st ++ t')). split; [reflexivity|]. split; [cbn; eauto|]. split; [cbn; lia|]. split; reflexivity.
      + eapply result_ok_weaken;
          [apply (finish r n cl W IH Hn Hc f s' (setData st (data st ++ t')) (noAst ss) (data st) t' t')|..]; try reflexivity; try lia; auto.
        destruct (number n =? 0)%nat; [exists []; now rewrite app_nil_r|eauto].
    - destruct H as (u & ->). exists false, x, (appData st u). split; [reflexivity|]. split; [cbn; eauto|]. split; [cbn; lia|]. split; reflexivity.
  Qed.

  Lemma digit_check c : checkNumber c 10 = digit c.
  Proof. unfold checkNumber, digit. cbn [Z.ltb Z.compare Pos.compare Pos.compare_cont]. lia. Qed.
  Lemma hex_check c : checkNumber c 16 = hexdigit c.
  Proof. unfold checkNumber, hexdigit, digit. cbn [Z.ltb Z.compare Pos.compare Pos.compare_cont]. lia. Qed.
  Lemma oct_check c : checkNumber c 8 = octdigit c.
  Proof. unfold checkNumber, octdigit, digit. cbn [Z.ltb Z.compare Pos.compare Pos.compare_cont]. lia. Qed.

  Lemma custom r n cl (W : wf r) (IH : P r) : numeral n -> closedOk cl r ->
    forall k, (k = Signed \/ k = Unsigned \/ k = Hex \/ k = Oct \/ k = Ident) ->
    forall fuel src st ss,
    (4 * length (kind_text k ++ tailText n cl r) + length src <= fuel)%nat -> dataBeg ss = length (data st) ->
    result_ok (parseArg fuel (kind_text k ++ tailText n cl r) src st ss) (data st) st (number n :: ids r)
      (match take k (rmax ss) src with
       | Some (t, s') => if (rmin ss <=? length t)%nat then addf (number n) t (smatch r s') else None
       | None => None
       end).
  Proof.
    intros Hn Hc k Hk fuel src st ss Hf Hb. rewrite app_length in Hf.
    assert (L1 : length (kind_text k) = 1%nat) by (destruct Hk as [-> |[-> |[-> |[-> | ->]]]]; reflexivity).
    destruct fuel as [|[|f]]; [lia|lia|].
    assert (Num : forall neg base dig, (forall c, checkNumber c base = dig c) -> (forall c, sign c = true -> dig c = false) ->
      take k (rmax ss) src = munch_number neg dig (rmax ss) src ->
      result_ok (let '(ok, src', st') := (let '(ok, _, s, x) := parseNumber src (rmax ss) neg base st in (ok, s, x)) in
                 if negb ok then Ok (false, src', st')
                 else if (length (data st') - length (data st) <? rmin ss)%nat then Ok (false, src', st')
                 else parseArg f (tailText n cl r) src' st' (noAst ss)) (data st) st (number n :: ids r)
      (match take k (rmax ss) src with
       | Some (t, s') => if (rmin ss <=? length t)%nat then addf (number n) t (smatch r s') else None
       | None => None
       end)).
    { intros neg base dig E Sg Et. rewrite Et. pose proof (number_ok neg base dig st src (rmax ss) E Sg) as Q.
      destruct (parseNumber src (rmax ss) neg base st) as [[[ok m] s] x].
      destruct (munch_number neg dig (rmax ss) src) as [(t, s')|] eqn:Em.
      - destruct Q as (-> & -> & ->). cbn [negb].
        apply (taken r n cl W IH Hn Hc f src st ss t (appData st t) (Some (t, s'))); [|lia|exact Hb|exact src].
        split; [|auto]. eapply munch_number_len; exact Em.
      - destruct Q as (-> & u & ->). cbn [negb].
        apply (taken r n cl W IH Hn Hc f src st ss [] (appData st u) None); [eauto|lia|exact Hb]. }
    destruct Hk as [-> |[-> |[-> |[-> | ->]]]]; cbn [kind_text app]; (rewrite arg_custom by (repeat (try (left; reflexivity); right); reflexivity) || rewrite arg_custom by auto 6).
    - apply (Num true 10 digit); [exact digit_check|unfold sign, digit; lia|reflexivity].
    - apply (Num false 10 digit); [exact digit_check|unfold sign, digit; lia|reflexivity].
    - apply (Num true 16 hexdigit); [exact hex_check|unfold sign, hexdigit, digit; lia|reflexivity].
    - apply (Num true 8 octdigit); [exact oct_check|unfold sign, octdigit; lia|reflexivity].
    - change (105 =? 105) with true. cbv iota. cbn [take]. pose proof (ident_ok st src (rmax ss)) as Q.
      destruct (parseIdentifier src (rmax ss) st) as [[ok s] x].
      destruct (munch_ident (rmax ss) src) as [(t, s')|] eqn:Em.
      + destruct Q as (-> & -> & ->). cbn [negb].
        apply (taken r n cl W IH Hn Hc f src st ss t (appData st t) (Some (t, s'))); [|lia|exact Hb|exact src].
        split; [|auto]. eapply munch_ident_len; exact Em.
      + destruct Q as (-> & u & ->). cbn [negb].
        apply (taken r n cl W IH Hn Hc f src st ss [] (appData st u) None); [eauto|lia|exact Hb].
  Qed.

  (** ** Character sets *)
  Lemma takeSet l rest : Forall (fun c => c <> 93) l ->
    takeWhileMax (fun x => negb (x =? 93)) None (l ++ 93 :: rest) = (l, 93 :: rest).
  Proof.
    induction 1 as [|c l Hc F IH]; cbn [app takeWhileMax under andb dec option_map].
    - reflexivity.
    - destruct (Z.eqb_spec c 93); [contradiction|]. cbn [negb]. now rewrite IH.
  Qed.
  Lemma head_ok c l rest : plain c -> Forall (fun c => c <> 93) l ->
    charListHead (c :: l ++ 93 :: rest) = Ok (Some (false, true, c :: l, rest)).
  Proof.
    intros Pc F. unfold charListHead.
    destruct (Z.eqb_spec c 42) as [->|]; [exfalso; apply Pc; cbn; auto|]. cbn [obind].
    destruct (Z.eqb_spec c 94) as [->|]; [exfalso; apply Pc; cbn; auto 6|]. cbn [obind].
    destruct (Z.eqb_spec c 92) as [->|]; [exfalso; apply Pc; cbn; auto 8|]. cbn [obind].
    rewrite (takeSet l rest F). reflexivity.
  Qed.
  Lemma head_not c l rest : plain c -> Forall (fun c => c <> 93) l ->
    charListHead (94 :: c :: l ++ 93 :: rest) = Ok (Some (false, false, c :: l, rest)).
  Proof.
    intros Pc F. unfold charListHead. cbn [Z.eqb Pos.eqb obind].
    destruct (Z.eqb_spec c 92) as [->|]; [exfalso; apply Pc; cbn; auto 8|]. cbn [obind].
    rewrite (takeSet l rest F). reflexivity.
  Qed.
  Lemma plain_minus a : plain a -> (a =? 45) = false.
  Proof. intros H. destruct (Z.eqb_spec a 45) as [->|]; [exfalso; apply H; cbn; auto|reflexivity]. Qed.
  Lemma plain_close a : plain a -> a <> 93.
  Proof. intros H ->. apply H. cbn; auto. Qed.
  Lemma members_plain l : Forall wf_member l -> Forall (fun c => c <> 93) (concat (map member_text l)) /\
    match concat (map member_text l) with c :: _ => plain c | [] => l = [] end.
  Proof.
    induction 1 as [|m l Hm F IH]; [split; [constructor|reflexivity]|]. destruct IH as [IH _].
    destruct m as [a|a b]; cbn [map member_text concat app].
    - split; [|exact Hm]. apply Forall_cons; [now apply plain_close|exact IH].
    - destruct Hm as [A B]. split; [|exact A]. apply Forall_cons; [now apply plain_close|].
      apply Forall_cons; [lia|]. apply Forall_cons; [now apply plain_close|exact IH].
  Qed.
  Lemma inList_set p l : Forall wf_member l -> forall f, (length (concat (map member_text l)) < f)%nat ->
    inList f true p (concat (map member_text l)) = existsb (in_member p) l.
  Proof.
    induction 1 as [|m l Hm F IH]; intros f Hf.
    - destruct f; reflexivity.
    - destruct f as [|f]; [lia|]. destruct (members_plain l F) as [_ Hp].
      destruct m as [a|a b]; cbn [map member_text concat app existsb in_member] in *.
      + cbn [length] in Hf. specialize (IH f ltac:(lia)). cbn [inList].
        destruct (concat (map member_text l)) as [|m' r'] eqn:E.
        * subst l. cbn [existsb]. now rewrite orb_false_r.
        * rewrite (plain_minus m' Hp). rewrite IH. destruct (p =? a); reflexivity.
      + cbn [length] in Hf. specialize (IH f ltac:(lia)). cbn [inList]. cbn [Z.eqb Pos.eqb].
        rewrite IH. destruct (a <=? p), (p <=? b); reflexivity.
  Qed.
  Lemma inList_not p l : Forall plain l -> forall f, (length l < f)%nat ->
    inList f false p l = existsb (Z.eqb p) l.
  Proof.
    induction 1 as [|a l Ha F IH]; intros f Hf.
    - destruct f; reflexivity.
    - destruct f as [|f]; [lia|]. cbn [length] in Hf. specialize (IH f ltac:(lia)). cbn [inList existsb].
      destruct l as [|m' r'].
      + cbn [existsb]. now rewrite orb_false_r.
      + apply Forall_cons_iff in F as [Hm _]. rewrite (plain_minus m' Hm), IH. destruct (p =? a); reflexivity.
  Qed.

  Lemma loop_S f dataPos ast cond l pat src st ss : charListLoop nl [] (S f) dataPos ast cond l pat src st ss =
      let n := length (data st) in
      let lessMax := if (n <? dataPos)%nat then match rmax ss with None => true | Some _ => false end
                     else under (n - dataPos) (rmax ss) in
      let finish :=
        if (dataPos <=? n)%nat && (n - dataPos <? rmin ss)%nat then Ok (false, src, st) else parseArg f pat src st ss in
      match src with
      | p :: src' =>
          if lessMax then
            if Bool.eqb (inList (S (length l)) cond p l) cond then
              let st := addData st p in
              let n := length (data st) in
              if ast && ((n <? dataPos)%nat || (rmin ss <=? n - dataPos)%nat) then
                let! (ok, st) := enter nl [] f pat src' st ss in
                if ok : bool then Ok (true, src', st) else charListLoop nl [] f dataPos ast cond l pat src' st ss
              else charListLoop nl [] f dataPos ast cond l pat src' st ss
            else finish
          else finish
      | [] => finish
      end.
  Proof. reflexivity. Qed.

  Lemma setLoop (ok : Z -> bool) cond l pat ss
    (E : forall p, Bool.eqb (inList (S (length l)) cond p l) cond = ok p) dataPos :
    forall src st (t : list Z) h fuel a rest, (length src < fuel)%nat ->
    length (data st) = (dataPos + length t)%nat ->
    h = option_map (fun m => m - length t)%nat (rmax ss) -> at_most (length t) (rmax ss) ->
    munch ok h src = (a, rest) ->
    exists f, (fuel <= S f + length a)%nat /\
      charListLoop nl [] fuel dataPos false cond l pat src st ss =
      if (length t + length a <? rmin ss)%nat then Ok (false, rest, appData st a)
      else parseArg f pat rest (appData st a) ss.
  Proof.
    assert (N0 : forall st, appData st [] = st).
    { intros st. unfold appData, setData. rewrite app_nil_r. now destruct st. }
    induction src as [|c src IH]; intros st t h fuel a rest Hf Hd Hh Hm Hu; (destruct fuel as [|f]; [cbn in Hf; lia|]);
      rewrite loop_S; cbn zeta; rewrite Hd;
      (replace (dataPos + length t <? dataPos)%nat with false by lia);
      (replace (dataPos <=? dataPos + length t)%nat with true by lia);
      (replace (dataPos + length t - dataPos)%nat with (length t) by lia); cbn [andb].
    - cbn [munch] in Hu. inversion Hu; subst. exists f. split; [cbn; lia|]. cbn [length]. rewrite N0, Nat.add_0_r. reflexivity.
    - cbn [munch] in Hu. rewrite E. cbn [length] in Hf.
      assert (Hund : under (length t) (rmax ss) = match h with Some O => false | _ => true end).
      { subst h. destruct (rmax ss) as [m|]; [|reflexivity]. cbn [under option_map at_most] in *.
        destruct (m - length t)%nat eqn:Em; lia. }
      rewrite Hund.
      destruct (match h with Some O => false | _ => true end) eqn:Eh.
      + assert (Hu' : (if ok c then let (a, r) := munch ok (option_map pred h) src in (c :: a, r) else ([], c :: src)) = (a, rest))
          by (destruct h as [[|m]|]; [easy|exact Hu|exact Hu]).
        destruct (ok c).
        * destruct (munch ok (option_map pred h) src) as [a' r'] eqn:Em. inversion Hu'; subst a r'.
          destruct (IH (addData st c) (t ++ [c]) (option_map pred h) f a' rest) as (f' & Hf' & Eq).
          -- lia.
          -- cbn. rewrite !app_length, Hd. cbn. lia.
          -- subst h. destruct (rmax ss); [|reflexivity]. cbn. rewrite app_length. cbn. f_equal. lia.
          -- subst h. destruct (rmax ss) as [m|]; [|exact I]. cbn in *. rewrite app_length. cbn.
             destruct (m - length t)%nat eqn:Ex; [easy|lia].
          -- exact Em.
          -- exists f'. split; [cbn [length]; lia|]. rewrite Eq. rewrite app_length. cbn [length].
             replace (length t + 1 + length a')%nat with (length t + S (length a'))%nat by lia.
             replace (appData (addData st c) a') with (appData st (c :: a')); [reflexivity|].
             unfold appData, addData, setData. cbn. now rewrite <- app_assoc.
        * inversion Hu'; subst. exists f. split; [cbn; lia|]. cbn [length]. rewrite N0, Nat.add_0_r. reflexivity.
      + assert (Hu' : a = [] /\ rest = c :: src) by (destruct h as [[|m]|]; [inversion Hu; auto|easy|easy]).
        destruct Hu' as [-> ->]. exists f. split; [cbn; lia|]. cbn [length]. rewrite N0, Nat.add_0_r. reflexivity.
  Qed.

  Lemma arg_set f pat src st ss : parseArg (S f) (91 :: pat) src st ss = parseCharList nl [] f pat src st (noAst ss).
  Proof. reflexivity. Qed.
  Lemma charList_S f pat src st ss : parseCharList nl [] (S f) pat src st ss =
      let! head := charListHead pat in
      match head with
      | None => Ok (false, src, st)
      | Some (ast, cond, l, pat) =>
          let dataPos := length (data st) in
          if ast && (rmin ss =? 0)%nat then
            let! (ok, st') := enter nl [] f pat src st ss in
            if ok : bool then Ok (true, src, st') else charListLoop nl [] f dataPos ast cond l pat src st' ss
          else charListLoop nl [] f dataPos ast cond l pat src st ss
      end.
  Proof. reflexivity. Qed.

  Lemma sets r n cl (W : wf r) (IH : P r) : numeral n -> closedOk cl r ->
    forall (ok : Z -> bool) cond l txt
    (E : forall p, Bool.eqb (inList (S (length l)) cond p l) cond = ok p)
    (Hh : charListHead (txt ++ 93 :: tailText n cl r) = Ok (Some (false, cond, l, tailText n cl r))),
    forall fuel src st ss,
    (4 * length (91%Z :: txt ++ 93%Z :: tailText n cl r) + length src <= fuel)%nat -> dataBeg ss = length (data st) ->
    result_ok (parseArg fuel (91 :: txt ++ 93 :: tailText n cl r) src st ss) (data st) st (number n :: ids r)
      (let (t, s') := munch ok (rmax ss) src in
       if (rmin ss <=? length t)%nat then addf (number n) t (smatch r s') else None).
  Proof.
    intros Hn Hc ok cond l txt E Hh fuel src st ss Hf Hb. cbn [length] in Hf. rewrite app_length in Hf. cbn [length] in Hf.
    destruct fuel as [|[|f]]; [lia|lia|]. rewrite arg_set, charList_S, Hh. cbn [obind andb]. cbn zeta.
    destruct (munch ok (rmax ss) src) as [a rest] eqn:Em.
    destruct (setLoop ok cond l (tailText n cl r) (noAst ss) E (length (data st)) src st [] (rmax ss) f a rest)
      as (f' & Hf' & Eq); try (cbn; lia); try exact Em.
    { cbn. destruct (rmax ss); [|reflexivity]. cbn. now rewrite Nat.sub_0_r. }
    { cbn. destruct (rmax ss); cbn; [lia|exact I]. }
    rewrite Eq. cbn [length Nat.add].
    pose proof (munch_app _ _ _ _ _ Em) as Ea.
    assert (La : length src = (length a + length rest)%nat) by (rewrite Ea; apply app_length).
    pose proof (taken r n cl W IH Hn Hc f' rest st ss a (appData st a) (Some (a, rest))
      ltac:(cbn; auto) ltac:(lia) Hb []) as Q.
    assert (Ed : (length (data (appData st a)) - length (data st))%nat = length a) by (cbn; rewrite app_length; lia).
    cbv iota in Q. rewrite Ed in Q. exact Q.
  Qed.

  (** ** Limits *)
  Lemma range1 ds rest n2 r2 : Forall (fun c => digit c = true) ds -> forall cnt n1 r1,
    exists cnt', (cnt' = cnt + length ds)%nat /\
    rangeLoop (ds ++ rest) cnt false n1 n2 r1 r2 =
    rangeLoop rest cnt' false (n1 || negb (length ds =? 0)%nat) n2
      (fold_left (fun a c => a * 10 + Z.to_nat (c - 48))%nat ds r1) r2.
  Proof.
    induction 1 as [|c ds Hc F IH]; intros cnt n1 r1; cbn [app].
    - exists cnt. split; [cbn; lia|]. cbn. now rewrite orb_false_r.
    - destruct (IH (S cnt) true (r1 * 10 + Z.to_nat (c - 48))%nat) as (cnt' & E & Q).
      exists cnt'. split; [cbn [length]; lia|]. cbn [rangeLoop].
      assert (B : isDigit c = true) by exact Hc. unfold digit in Hc.
      replace (c =? 44) with false by lia. rewrite B. rewrite Q. cbn [orb length Nat.eqb negb fold_left].
      now rewrite orb_true_r.
  Qed.
  Lemma range2 ds rest n1 r1 : Forall (fun c => digit c = true) ds -> forall cnt n2 r2,
    exists cnt', (cnt' = cnt + length ds)%nat /\
    rangeLoop (ds ++ rest) cnt true n1 n2 r1 (Some r2) =
    rangeLoop rest cnt' true n1 (n2 || negb (length ds =? 0)%nat) r1
      (Some (fold_left (fun a c => a * 10 + Z.to_nat (c - 48))%nat ds r2)).
  Proof.
    induction 1 as [|c ds Hc F IH]; intros cnt n2 r2; cbn [app].
    - exists cnt. split; [cbn; lia|]. cbn. now rewrite orb_false_r.
    - destruct (IH (S cnt) true (r2 * 10 + Z.to_nat (c - 48))%nat) as (cnt' & E & Q).
      exists cnt'. split; [cbn [length]; lia|]. cbn [rangeLoop].
      assert (B : isDigit c = true) by exact Hc. unfold digit in Hc.
      replace (c =? 44) with false by lia. rewrite B. cbn [option_map]. rewrite Q. cbn [orb length Nat.eqb negb fold_left].
      now rewrite orb_true_r.
  Qed.
  Lemma range_minmax a b rest ss : numeral a -> numeral b ->
    parseRange (a ++ 44 :: b ++ 41 :: rest) ss = Ok (true, mkStep (dataBeg ss) (number a) (Some (number b)) (defAst ss), rest).
  Proof.
    intros [Na Fa] [Nb Fb]. unfold parseRange.
    destruct (range1 a (44 :: b ++ 41 :: rest) false (Some 0%nat) Fa 0%nat false 0%nat) as (c1 & E1 & Q1). rewrite Q1.
    cbn [rangeLoop Z.eqb Pos.eqb].
    destruct (range2 b (41 :: rest) (false || negb (length a =? 0)%nat)
      (fold_left (fun a c => a * 10 + Z.to_nat (c - 48))%nat a 0%nat) Fb (S c1) false 0%nat) as (c2 & E2 & Q2). rewrite Q2.
    cbn [rangeLoop Z.eqb Pos.eqb isDigit andb Z.leb Z.compare Pos.compare Pos.compare_cont obind].
    destruct a; [easy|]. destruct b; [easy|]. reflexivity.
  Qed.
  Lemma range_min a rest ss : numeral a ->
    parseRange (a ++ 44 :: 42 :: 41 :: rest) ss = Ok (true, mkStep (dataBeg ss) (number a) None (defAst ss), rest).
  Proof.
    intros [Na Fa]. unfold parseRange.
    destruct (range1 a (44 :: 42 :: 41 :: rest) false (Some 0%nat) Fa 0%nat false 0%nat) as (c1 & E1 & Q1). rewrite Q1.
    cbn [rangeLoop Z.eqb Pos.eqb isDigit andb Z.leb Z.compare Pos.compare Pos.compare_cont obind].
    destruct a; [easy|]. reflexivity.
  Qed.
  Lemma arg_range f pat src st ss : parseArg (S f) (40 :: pat) src st ss =
    let! (ok, ss, r) := parseRange pat ss in if ok : bool then parseArg f r src st ss else Ok (false, src, st).
  Proof. reflexivity. Qed.
  Lemma arg_star f pat src st ss : parseArg (S f) (42 :: pat) src st ss = parseAsterix nl [] f 0 pat src st (noAst ss).
  Proof. reflexivity. Qed.
  Lemma arg_default f n cl r src st ss : numeral n -> defAst ss = true ->
    parseArg (S f) (tailText n cl r) src st ss = parseAsterix nl [] f 0 (tailText n cl r) src st (noAst ss).
  Proof.
    intros [N D] A. unfold tailText. destruct n as [|d n]; [easy|]. cbn [app]. cbn [TextParser_Model.parseArg].
    apply Forall_cons_iff in D as [Dd D]. assert (B : isDigit d = true) by exact Dd. unfold digit in Dd.
    replace (d =? 60) with false by lia. replace (d =? 124) with false by lia. replace (d =? 62) with false by lia.
    replace (d =? 91) with false by lia. replace (d =? 40) with false by lia. replace (d =? 42) with false by lia.
    replace (d =? 39) with false by lia. replace (d =? 113) with false by lia. replace (d =? 37) with false by lia.
    cbn [orb]. rewrite B, A. reflexivity.
  Qed.

  (** a field after its limits *)
  Lemma field_body r n cl k (W : wf r) (IH : P r) : numeral n -> closedOk cl r -> wf_kind k ->
    forall fuel src st ss l, rmin ss = lo l -> rmax ss = hi l -> defAst ss = true ->
    (4 * length (kind_text k ++ tailText n cl r) + length src + 3 <= fuel)%nat -> dataBeg ss = length (data st) ->
    result_ok (parseArg fuel (kind_text k ++ tailText n cl r) src st ss) (data st) st (number n :: ids r)
      (smatch (Field k l n cl :: r) src).
  Proof.
    intros Hn Hc Wk fuel src st ss l Hlo Hhi Ha Hf Hb.
    assert (Search : forall ss f, rmin ss = lo l -> rmax ss = hi l -> dataBeg ss = length (data st) -> defAst ss = false ->
      k = Any \/ k = Star -> (4 * length (tailText n cl r) + length src + 2 <= f)%nat ->
      result_ok (parseAsterix nl [] f 0 (tailText n cl r) src st ss) (data st) st (number n :: ids r)
        (smatch (Field k l n cl :: r) src)).
    { intros s1 f A B C D K F. rewrite smatch_any by exact K. rewrite <- A, <- B.
      apply (search r n cl W IH Hn Hc src f 0 st s1 (data st) [] []); auto. now rewrite app_nil_r. }
    rewrite app_length in Hf.
    destruct k as [| | | | | | |l0|l0].
    - cbn [kind_text app length] in *. destruct fuel as [|f]; [lia|]. rewrite arg_default by assumption.
      apply Search; auto. lia.
    - cbn [kind_text app length] in *. destruct fuel as [|f]; [lia|]. rewrite arg_star.
      apply Search; auto. lia.
    - rewrite smatch_take by easy. rewrite <- Hlo, <- Hhi. apply custom; auto. rewrite app_length; lia.
    - rewrite smatch_take by easy. rewrite <- Hlo, <- Hhi. apply custom; auto. rewrite app_length; lia.
    - rewrite smatch_take by easy. rewrite <- Hlo, <- Hhi. apply custom; auto. rewrite app_length; lia.
    - rewrite smatch_take by easy. rewrite <- Hlo, <- Hhi. apply custom; auto 6. rewrite app_length; lia.
    - rewrite smatch_take by easy. rewrite <- Hlo, <- Hhi. apply custom; auto 6. rewrite app_length; lia.
    - rewrite smatch_take by easy. rewrite <- Hlo, <- Hhi. cbn [take].
      destruct Wk as [N F]. destruct (members_plain l0 F) as [C1 C2].
      pose proof (sets r n cl W IH Hn Hc (fun c => existsb (in_member c) l0) true (concat (map member_text l0))
        (concat (map member_text l0))) as Q.
      assert (Et : kind_text (Set_ l0) ++ tailText n cl r = 91 :: concat (map member_text l0) ++ 93 :: tailText n cl r)
        by (cbn [kind_text app]; now rewrite <- app_assoc).
      rewrite Et. destruct (munch (fun c => existsb (in_member c) l0) (rmax ss) src) as [t s'] eqn:Em.
      specialize (Q ltac:(intros p; rewrite inList_set by (auto; lia); destruct (existsb (in_member p) l0); reflexivity)).
      assert (Hh : charListHead (concat (map member_text l0) ++ 93 :: tailText n cl r) =
                   Ok (Some (false, true, concat (map member_text l0), tailText n cl r))).
      { destruct (concat (map member_text l0)) as [|c q] eqn:Eq; [contradiction|].
        apply head_ok; [exact C2|]. now apply Forall_cons_iff in C1 as [_ C1]. }
      specialize (Q Hh fuel src st ss). rewrite Em in Q. apply Q; [|exact Hb]. rewrite <- Et, app_length. lia.
    - rewrite smatch_take by easy. rewrite <- Hlo, <- Hhi. cbn [take].
      destruct Wk as [N F].
      assert (C1 : Forall (fun c => c <> 93) l0) by (eapply Forall_impl; [|exact F]; exact plain_close).
      pose proof (sets r n cl W IH Hn Hc (fun c => negb (existsb (Z.eqb c) l0)) false l0 (94 :: l0)) as Q.
      assert (Et : kind_text (NotIn l0) ++ tailText n cl r = 91 :: (94 :: l0) ++ 93 :: tailText n cl r)
        by (cbn [kind_text app]; now rewrite <- app_assoc).
      rewrite Et. destruct (munch (fun c => negb (existsb (Z.eqb c) l0)) (rmax ss) src) as [t s'] eqn:Em.
      specialize (Q ltac:(intros p; rewrite inList_not by (auto; lia); destruct (existsb (Z.eqb p) l0); reflexivity)).
      assert (Hh : charListHead ((94 :: l0) ++ 93 :: tailText n cl r) = Ok (Some (false, false, l0, tailText n cl r))).
      { destruct l0 as [|c q]; [contradiction|]. apply Forall_cons_iff in F as [Fc F]. apply Forall_cons_iff in C1 as [_ C1].
        cbn [app]. apply head_not; [exact Fc|exact C1]. }
      specialize (Q Hh fuel src st ss). rewrite Em in Q. apply Q; [|exact Hb]. rewrite <- Et, app_length. lia.
  Qed.

  Lemma arg_field f k l n cl r src st : wf_limits l -> wf_kind k -> numeral n -> (1 <= f)%nat ->
    exists ss f', rmin ss = lo l /\ rmax ss = hi l /\ defAst ss = true /\ dataBeg ss = length (data st) /\
      (f <= f' + length (limits_text l))%nat /\
      parseArg f (limits_text l ++ kind_text k ++ tailText n cl r) src st (newStep st) =
      parseArg f' (kind_text k ++ tailText n cl r) src st ss.
  Proof.
    intros Wl Wk Wn Hf. destruct l as [|a b|a].
    - exists (newStep st), f. cbn [limits_text app length]. repeat split; lia.
    - destruct f as [|f]; [lia|]. destruct Wl as [Wa Wb].
      exists (mkStep (length (data st)) (number a) (Some (number b)) true), f. repeat split; auto.
      { cbn [limits_text app length]. lia. }
      cbn [limits_text app]. rewrite <- !app_assoc. cbn [app]. rewrite <- app_assoc. cbn [app].
      rewrite arg_range, range_minmax by assumption. reflexivity.
    - destruct f as [|f]; [lia|].
      exists (mkStep (length (data st)) (number a) None true), f. repeat split; auto.
      { cbn [limits_text app length]. lia. }
      cbn [limits_text app]. rewrite <- !app_assoc. cbn [app].
      rewrite arg_range, range_min by assumption. reflexivity.
  Qed.

  Lemma parse_S f pat src st : parse (S f) pat src st =
      match pat with
      | [] => Ok (match src with [] => true | _ => false end, src, st)
      | p :: pat =>
          if p =? 37 then
            match pat with
            | [] => Ok (true, src, st)
            | n :: pat' =>
                if escaped n then
                  match src with
                  | c :: src' => if n =? c then parse f pat' src' st else Ok (false, src, st)
                  | [] => Ok (false, src, st)
                  end
                else parseArg f pat src st (newStep st)
            end
          else if p =? 8 then
            let (once, src) := skipSet isWS src in if once : bool then parse f pat src st else Ok (false, src, st)
          else if p =? 9 then
            let (once, src) := skipSet isBlank src in if once : bool then parse f pat src st else Ok (false, src, st)
          else if p =? 10 then
            let (ok, src) := matchNl nl src in if ok : bool then parse f pat src st else Ok (false, src, st)
          else if p =? 32 then parse f pat (snd (skipSet (inWs []) src)) st
          else if p =? 95 then
            let (once, src) := skipSet (inWs []) src in if once : bool then parse f pat src st else Ok (false, src, st)
          else
            match src with
            | c :: src' => if c =? p then parse f pat src' st else Ok (false, src, st)
            | [] => Ok (false, src, st)
            end
      end.
  Proof. reflexivity. Qed.

  Lemma trivial_ok b src st is res :
    match res with None => b = false | Some fs => b = true /\ fs = [] end -> result_ok (Ok (b, src, st)) (data st) st is res.
  Proof.
    intros H. exists b, src, st. split; [reflexivity|]. split; [exists []; now rewrite app_nil_r|]. split; [lia|].
    split; [reflexivity|]. destruct res as [fs|]; [|exact H]. destruct H as [-> ->]. split; [reflexivity|]. intros n t _ E. easy.
  Qed.

  Lemma field_first k l n : wf_limits l -> wf_kind k -> numeral n ->
    exists c q, limits_text l ++ kind_text k ++ n = c :: q /\ escaped c = false.
  Proof.
    intros Wl Wk [N D]. destruct l; [|eexists _, _; split; reflexivity..]. cbn [limits_text app].
    destruct k; try (eexists _, _; split; reflexivity). cbn [kind_text app].
    destruct n as [|d n]; [easy|]. exists d, n. split; [reflexivity|]. apply Forall_cons_iff in D as [D _].
    unfold digit in D. unfold escaped. lia.
  Qed.

  Theorem parse_ok is : wf is -> P is.
  Proof.
    induction is as [|i r IH]; intros W.
    - intros src st fuel Hf. destruct fuel as [|f]; [cbn in Hf; lia|]. cbn [pattern map concat]. rewrite parse_S.
      apply trivial_ok. destruct src; cbn; auto.
    - assert (Ep : pattern (i :: r) = item_text i ++ pattern r) by reflexivity.
      intros src st fuel Hf. rewrite Ep in *. rewrite app_length in Hf. destruct fuel as [|f]; [lia|].
      assert (Next : forall src', wf r -> (length src' <= length src)%nat -> (1 <= length (item_text i))%nat ->
        result_ok (parse f (pattern r) src' st) (data st) st (ids r) (smatch r src')).
      { intros src' Wr L1 L2. apply IH; [exact Wr|lia]. }
      destruct i as [c| | |k l n cl|].
      + change (ids (Text c :: r)) with (ids r). cbn [item_text smatch] in *. cbn [wf] in W. destruct (special c) eqn:Sc; cbn [app]; rewrite parse_S.
        * change (37 =? 37) with true. cbv iota. change (escaped c) with (special c). rewrite Sc.
          destruct src as [|d src]; [apply trivial_ok; reflexivity|]. rewrite (Z.eqb_sym d c).
          destruct (c =? d); [|apply trivial_ok; reflexivity]. apply Next; [exact W|cbn; lia|cbn; lia].
        * unfold special in Sc. replace (c =? 37) with false by lia. replace (c =? 8) with false by lia.
          replace (c =? 9) with false by lia. replace (c =? 10) with false by lia. replace (c =? 32) with false by lia.
          replace (c =? 95) with false by lia.
          destruct src as [|d src]; [apply trivial_ok; reflexivity|].
          destruct (d =? c); [|apply trivial_ok; reflexivity]. apply Next; [exact W|cbn; lia|cbn; lia].
      + change (ids (Blanks :: r)) with (ids r). cbn [item_text smatch app] in *. cbn [wf] in W. rewrite parse_S. cbn [Z.eqb Pos.eqb].
        change (inWs []) with blank. unfold dropBlanks. rewrite <- skipSet_munch.
        apply Next; [exact W|apply skipSet_len|cbn; lia].
      + change (ids (Blanks1 :: r)) with (ids r). cbn [item_text smatch app] in *. cbn [wf] in W. rewrite parse_S. cbn [Z.eqb Pos.eqb].
        change (inWs []) with blank. destruct src as [|c src]; [apply trivial_ok; reflexivity|]. cbn [skipSet].
        destruct (blank c); [|apply trivial_ok; reflexivity]. unfold dropBlanks. rewrite <- skipSet_munch.
        apply Next; [exact W|pose proof (skipSet_len blank src); cbn; lia|cbn; lia].
      + destruct W as (Wk & Wl & Wn & Wc & Wr). change (ids (Field k l n cl :: r)) with (number n :: ids r).
        assert (Et : item_text (Field k l n cl) ++ pattern r = 37 :: limits_text l ++ kind_text k ++ tailText n cl r).
        { cbn [item_text app]. unfold tailText. f_equal. now rewrite <- !app_assoc. }
        assert (El : length (item_text (Field k l n cl) ++ pattern r) =
                     (1 + length (limits_text l) + length (kind_text k ++ tailText n cl r))%nat).
        { rewrite Et. cbn [length]. rewrite !app_length. lia. }
        rewrite app_length in El.
        rewrite Et, parse_S. change (37 =? 37) with true. cbv iota.
        destruct (field_first k l n Wl Wk Wn) as (c & q & Ec & Esc).
        assert (Ec' : limits_text l ++ kind_text k ++ tailText n cl r = c :: q ++ (if cl then [37] else []) ++ pattern r).
        { unfold tailText. rewrite !app_assoc. rewrite !app_assoc in Ec. rewrite Ec. cbn [app]. now rewrite <- !app_assoc. }
        rewrite Ec', Esc, <- Ec'.
        destruct (arg_field f k l n cl r src st Wl Wk Wn ltac:(lia)) as (ss & f' & A & B & C & D & F & E). rewrite E.
        apply field_body; auto. lia.
      + cbn [wf] in W. subst r. cbn [item_text pattern map concat app]. rewrite parse_S. change (37 =? 37) with true. cbv iota.
        apply trivial_ok. cbn. auto.
  Qed.
End Main.

(** ** The executable match is the first match of the declarative one *)
Lemma any_eq k l n cl r s : k = Any \/ k = Star ->
  smatch (Field k l n cl :: r) s =
  first_some (fun i => addf (number n) (firstn i s) (smatch r (skipn i s))) (lo l)
    (S match hi l with Some m => Nat.min m (length s) | None => length s end - lo l).
Proof. intros [-> | ->]; reflexivity. Qed.
Lemma smatch_sound is : forall s fs, wf is -> smatch is s = Some fs -> matches is s fs.
Proof.
  induction is as [|i r IH]; intros s fs W H.
  - cbn in H. destruct s; [|easy]. inversion H. constructor.
  - destruct i as [c| | |k l n cl|].
    + cbn in H, W. destruct s as [|d s]; [easy|]. destruct (Z.eqb_spec d c) as [->|]; [|easy]. constructor; auto.
    + constructor; auto.
    + cbn in H, W. destruct s as [|d s]; [easy|]. destruct (blank d) eqn:B; [|easy]. constructor; auto.
    + destruct W as (Wk & Wl & Wn & Wc & Wr).
      assert (D : (k = Any \/ k = Star) \/ (k <> Any /\ k <> Star)) by (destruct k; auto; right; split; easy).
      destruct D as [D|(D1 & D2)].
      * rewrite any_eq in H by exact D. apply first_some_ok in H as (i & Hi & Hf & _).
        destruct (smatch r (skipn i s)) as [gs|] eqn:E; [|easy]. inversion Hf; subst fs.
        rewrite <- (firstn_skipn i s) at 1.
        assert (Li : length (firstn i s) = i) by (rewrite firstn_length; destruct (hi l); lia).
        apply M_any; [exact D|lia| |auto].
        rewrite Li. unfold at_most. destruct (hi l); lia.
      * rewrite smatch_take in H by assumption. destruct (take k (hi l) s) as [(t, s')|] eqn:T; [|easy].
        destruct (Nat.leb_spec (lo l) (length t)); [|easy]. destruct (smatch r s') as [gs|] eqn:E; [|easy].
        inversion H; subst. eapply M_take; eauto.
    + cbn in H, W. subst r. inversion H. constructor.
Qed.
Lemma smatch_complete is s fs : matches is s fs -> wf is -> exists gs, smatch is s = Some gs /\ sooner gs fs.
Proof.
  induction 1 as [|c r s fs M IH|r s fs M IH|r c s fs B M IH|s|k l n cl r t s fs K Hl Hh M IH|k l n cl r s0 t s fs T Hl M IH]; intros W.
  - exists []. split; reflexivity.
  - cbn in *. rewrite Z.eqb_refl. auto.
  - cbn in *. auto.
  - cbn in *. rewrite B. auto.
  - exists []. split; reflexivity.
  - destruct W as (Wk & Wl & Wn & Wc & Wr). destruct (IH Wr) as (gs & E & S_). rewrite any_eq by exact K.
    set (f := fun i => addf (number n) (firstn i (t ++ s)) (smatch r (skipn i (t ++ s)))).
    assert (Ft : f (length t) = Some ((number n, t) :: gs)).
    { unfold f. rewrite firstn_app, firstn_all, skipn_app, skipn_all, Nat.sub_diag. cbn [firstn skipn app].
      rewrite app_nil_r, E. reflexivity. }
    assert (R : (lo l <= length t < lo l + (S match hi l with Some m => Nat.min m (length (t ++ s)) | None => length (t ++ s) end - lo l))%nat).
    { rewrite app_length. unfold at_most in Hh. destruct (hi l); lia. }
    destruct (first_some f (lo l) _) as [hs|] eqn:Fs.
    + exists hs. split; [reflexivity|]. apply first_some_ok in Fs as (i & Hi & Hf & Hmin).
      destruct (Nat.lt_trichotomy i (length t)) as [Lt|[Eq|Gt]].
      * unfold f in Hf. destruct (smatch r (skipn i (t ++ s))); [|easy]. inversion Hf. cbn [sooner]. left.
        rewrite firstn_length, app_length. lia.
      * subst i. rewrite Ft in Hf. inversion Hf. cbn [sooner]. right. auto.
      * rewrite (Hmin (length t)) in Ft by lia. easy.
    + rewrite (first_some_none _ _ _ Fs (length t)) in Ft by exact R. easy.
  - destruct W as (Wk & Wl & Wn & Wc & Wr). destruct (IH Wr) as (gs & E & S_).
    assert (D1 : k <> Any) by (intros ->; easy). assert (D2 : k <> Star) by (intros ->; easy).
    rewrite smatch_take by assumption. rewrite T. destruct (Nat.leb_spec (lo l) (length t)); [|lia].
    rewrite E. exists ((number n, t) :: gs). split; [reflexivity|]. cbn [sooner]. auto.
Qed.

Lemma holds_result st n t : n <> 0%nat -> holds st n t -> result st n = Ok t.
Proof.
  intros N (bg & G & L & B & T). unfold result.
  destruct (Nat.ltb_spec n 1); [lia|]. destruct (Nat.ltb_spec (length (frags st)) n); [lia|]. cbn [orb].
  assert (E : nth_error (frags st) (n - 1) = Some (bg, length t)).
  { unfold getf in G. rewrite <- G. apply nth_error_nth'. lia. }
  rewrite E. destruct (Nat.leb_spec (bg + length t) (length (data st))); [|lia]. now rewrite T.
Qed.

(** ** Quoted texts *)
Section Quoted.
  Variable nl : list Z.
  Lemma quoted_loop q e t rest : (q = e -> match rest with c :: _ => c <> q | [] => True end) -> forall st,
    quotedLoop q e (quoteBody q e t ++ q :: rest) st = Ok (rest, appData st t).
  Proof.
    intros Hr. induction t as [|c t IH]; intros st.
    - cbn [quoteBody map concat app quotedLoop]. 
      replace (appData st []) with st by (unfold appData, setData; rewrite app_nil_r; now destruct st).
      destruct (Z.eqb_spec q e) as [->|D].
      + specialize (Hr eq_refl). destruct rest as [|b rest]; [rewrite ?Z.eqb_refl; reflexivity|].
        destruct (Z.eqb_spec b e); [contradiction|]. rewrite ?Z.eqb_refl. reflexivity.
      + rewrite Z.eqb_refl. reflexivity.
    - change (quoteBody q e (c :: t)) with ((if (c =? q) || (c =? e) then [e; c] else [c]) ++ quoteBody q e t).
      replace (appData st (c :: t)) with (appData (addData st c) t)
        by (unfold appData, addData, setData; cbn; now rewrite <- app_assoc).
      destruct (Z.eqb_spec c q) as [->|Dq]; cbn [orb].
      + cbn [app quotedLoop]. rewrite !Z.eqb_refl. apply IH.
      + destruct (Z.eqb_spec c e) as [->|De]; cbn [app quotedLoop].
        * rewrite Z.eqb_refl. destruct (Z.eqb_spec e q); [contradiction|].
          destruct (Z.eqb_spec q e); [congruence|]. apply IH.
        * destruct (Z.eqb_spec c e); [contradiction|]. destruct (Z.eqb_spec c q); [contradiction|]. apply IH.
  Qed.
  Lemma quoted_ok q e t r n cl s st fuel : wf r -> numeral n -> closedOk cl r ->
    (q = e -> match s with c :: _ => c <> q | [] => True end) ->
    (4 * length (tailText n cl r) + length s + 10 <= fuel)%nat ->
    result_ok (parse nl [] fuel (37 :: 39 :: q :: e :: tailText n cl r) (quoted q e t ++ s) st) (data st) st
      (number n :: ids r) (addf (number n) t (smatch r s)).
  Proof.
    intros W Hn Hc Hs Hf. destruct fuel as [|[|[|f]]]; [lia..|]. rewrite parse_S. change (37 =? 37) with true. cbv iota.
    change (escaped 39) with false. cbv iota.
    assert (E : parseArg nl [] (S (S f)) (39 :: q :: e :: tailText n cl r) (quoted q e t ++ s) st (newStep st) =
      let! (src, st') := quotedLoop q e (quoteBody q e t ++ q :: s) st in parseArg nl [] f (tailText n cl r) src st' (noAst (newStep st))).
    { unfold quoted. cbn [app]. rewrite <- app_assoc. cbn [app].
      transitivity (parseQuoted nl [] (S f) (q :: e :: tailText n cl r) (q :: quoteBody q e t ++ q :: s) st (noAst (newStep st)));
        [reflexivity|].
      transitivity (if q =? q then
                let! (src, st') := quotedLoop q e (quoteBody q e t ++ q :: s) st in parseArg nl [] f (tailText n cl r) src st' (noAst (newStep st))
              else Ok (false, q :: quoteBody q e t ++ q :: s, st)); [reflexivity|]. now rewrite Z.eqb_refl. }
    rewrite E. rewrite quoted_loop by exact Hs. cbn [obind].
    eapply result_ok_weaken; [apply (finish nl r n cl W (parse_ok nl r W) Hn Hc f s (appData st t) (noAst (newStep st)) (data st) t t)|..]; auto.
    - lia.
    - destruct (number n =? 0)%nat; [exists []; now rewrite app_nil_r|eauto].
  Qed.
End Quoted.

(** ** Numbers *)
Lemma unsignedLoop_ok ds : Forall (fun c => digit c = true) ds -> forall s,
  unsignedLoop ds 10 (s mod 2 ^ 64) = Ok (fold_left (fun a c => a * 10 + (c - 48)) ds s mod 2 ^ 64).
Proof.
  induction 1 as [|c ds Hc F IH]; intros s; [reflexivity|]. cbn [unsignedLoop fold_left].
  assert (B : (48 <=? c) && (c <=? 57) = true) by exact Hc. rewrite B. cbn [obind].
  replace (10 <=? c - 48) with false by lia. rewrite <- IH. f_equal.
  rewrite Z.add_mod, Z.mul_mod_idemp_l, <- Z.add_mod by lia. reflexivity.
Qed.
Lemma toUnsigned_ok ds : numeral ds -> stringToUnsigned ds 10 = Ok (decimal ds mod 2 ^ 64).
Proof.
  intros [N F]. destruct ds as [|c ds]; [easy|]. cbn [stringToUnsigned].
  pose proof F as F'. apply Forall_cons_iff in F' as [Hc _]. unfold digit in Hc.
  replace (c =? 43) with false by lia. exact (unsignedLoop_ok (c :: ds) F 0).
Qed.
