(** Lemmas about the iterator adapters. *)
From Coq Require Import Sorting.Permutation Sorting.Sorted.
From Verif Require Import Common Heap_Model Heap_Proof Iter_Spec Iter_Model.

Lemma t_write_ok {A} (t : target A) x : t_open t = true -> t_write t x = Ok (t_push t [x]).
Proof. unfold t_open, t_write, t_push. destruct (troom t) as [[|r]|]; try discriminate; cbn; intros _; auto. now rewrite Nat.sub_0_r. Qed.
Lemma t_write_full {A} (t : target A) x : t_open t = false -> t_write t x = Throw.
Proof. unfold t_open, t_write. destruct (troom t) as [[|r]|]; try discriminate; auto. Qed.
Lemma t_push_nil {A} (t : target A) : t_push t [] = t.
Proof. destruct t as [d [r|]]; unfold t_push; cbn; rewrite app_nil_r, ?Nat.sub_0_r; auto. Qed.
Lemma t_push_app {A} (t : target A) a b : t_push (t_push t a) b = t_push t (a ++ b).
Proof. destruct t as [d [r|]]; unfold t_push; cbn; rewrite <- app_assoc; auto. do 2 f_equal. rewrite app_length. lia. Qed.
Lemma t_fits_open {A} (t : target A) n : t_fits t (S n) = true -> t_open t = true.
Proof. unfold t_fits, t_open. destruct (troom t) as [[|r]|]; auto. Qed.
Lemma t_fits_push {A} (t : target A) x n : t_fits t (S n) = true -> t_fits (t_push t [x]) n = true.
Proof. unfold t_fits, t_push. destruct (troom t) as [r|]; auto. cbn -[Nat.leb]. intros H. lia. Qed.
Lemma t_fits_le {A} (t : target A) n m : m <= n -> t_fits t n = true -> t_fits t m = true.
Proof. unfold t_fits. destruct (troom t) as [r|]; auto. intros ? ?. lia. Qed.

(** ** Default algorithms *)
Lemma upd_app {A} (l r : list A) y x : upd (l ++ y :: r) (length l) x = l ++ x :: r.
Proof. induction l; cbn; congruence. Qed.
Lemma readLoop_ok {A} : forall fuel (src pre post : list A), length post <= fuel ->
  readLoop fuel src (pre ++ post) (length pre) =
  Ok (length pre + min (length src) (length post), pre ++ firstn (length post) src ++ skipn (length src) post, skipn (length post) src).
Proof.
  induction fuel as [|f IH]; intros src pre post L.
  - destruct post; cbn in L; [|lia]. destruct src; cbn [readLoop].
    + cbn. now rewrite Nat.add_0_r.
    + rewrite app_nil_r, Nat.ltb_irrefl. cbn. now rewrite Nat.add_0_r, app_nil_r.
  - destruct src as [|x src].
    + cbn [readLoop length skipn]. rewrite firstn_nil, skipn_nil. cbn. now rewrite Nat.add_0_r.
    + destruct post as [|y post].
      * cbn [readLoop]. rewrite app_nil_r, Nat.ltb_irrefl. cbn. now rewrite Nat.add_0_r, app_nil_r.
      * cbn [readLoop]. destruct (Nat.ltb_spec (length pre) (length (pre ++ y :: post))) as [H|H]; [|rewrite app_length in H; cbn in H; lia].
        rewrite upd_app. replace (pre ++ x :: post) with ((pre ++ [x]) ++ post) by (rewrite <- app_assoc; auto).
        replace (length pre + 1) with (length (pre ++ [x])) by (rewrite app_length; auto).
        rewrite IH by (cbn in L; lia). rewrite app_length. cbn [length Nat.min firstn skipn]. rewrite <- app_assoc. cbn [app].
        f_equal. f_equal. f_equal. lia.
Qed.
Lemma blockRead_ok {A} (src buf : list A) readAll :
  blockRead src buf readAll =
  Ok (if readAll && (length src <? length buf) then None else Some (min (length src) (length buf)),
      firstn (length buf) src ++ skipn (length src) buf, skipn (length buf) src).
Proof.
  unfold blockRead. destruct (Nat.eqb_spec (length buf) 0) as [E|E].
  - destruct buf; [|discriminate]. cbn. rewrite skipn_nil, andb_false_r, Nat.min_0_r. auto.
  - pose proof (readLoop_ok (length buf) src [] buf (Nat.le_refl _)) as R. cbn [length Nat.add app] in R. rewrite R. cbn [obind].
    rewrite app_length, firstn_length, skipn_length.
    replace (readAll && negb (min (length src) (length buf) =? min (length buf) (length src) + (length buf - length src)))
      with (readAll && (length src <? length buf)); [destruct (readAll && _); auto|].
    destruct readAll; cbn [andb]; auto. destruct (Nat.ltb_spec (length src) (length buf)) as [H|H];
    destruct (Nat.eqb_spec (min (length src) (length buf)) (min (length buf) (length src) + (length buf - length src))); cbn; auto; lia.
Qed.

Lemma writeLoop_ok {A} : forall (buf : list A) t wr,
  exists k, k <= length buf /\ writeLoop buf t wr = Ok (wr + k, t_push t (firstn k buf)) /\
            (k < length buf -> t_open (t_push t (firstn k buf)) = false) /\ t_fits t k = true.
Proof.
  induction buf as [|x buf IH]; intros t wr; cbn [writeLoop].
  - exists 0. cbn. rewrite Nat.add_0_r, t_push_nil. repeat split; auto; try lia. unfold t_fits. destruct (troom t); auto.
  - destruct (t_open t) eqn:O.
    + rewrite (t_write_ok _ _ O). cbn [obind]. destruct (IH (t_push t [x]) (wr + 1)) as (k & L & E & F & G).
      exists (S k). cbn [length firstn]. split; [lia|]. rewrite E, !t_push_app in *. cbn [app] in *.
      split; [f_equal; f_equal; lia|]. split; [intros; apply F; lia|].
      unfold t_fits, t_push, t_open in *. destruct (troom t) as [[|r]|]; auto; try discriminate. cbn -[Nat.leb] in *. lia.
    + exists 0. cbn [firstn]. rewrite Nat.add_0_r, t_push_nil. repeat split; auto; try lia. unfold t_fits. destruct (troom t); auto.
Qed.
Lemma blockWrite_fits {A} (buf : list A) t b : t_fits t (length buf) = true ->
  blockWrite buf t b = Ok (Some (length buf), t_push t buf).
Proof.
  intros F. unfold blockWrite. destruct (Nat.eqb_spec (length buf) 0) as [E|E].
  - destruct buf; [|discriminate]. now rewrite t_push_nil.
  - destruct (writeLoop_ok buf t 0) as (k & L & W & N & K). rewrite W. cbn [obind Nat.add].
    assert (k = length buf).
    { destruct (Nat.lt_ge_cases k (length buf)) as [H|H]; [|lia]. specialize (N H). exfalso.
      unfold t_fits, t_push, t_open in *. destruct (troom t) as [r|]; cbn in N; [|discriminate].
      rewrite firstn_length in N. apply Nat.leb_le in F. destruct (r - min k (length buf)) eqn:Q; [|discriminate]. lia. }
    subst k. rewrite Nat.eqb_refl, firstn_all. auto.
Qed.
Lemma blockWrite_short {A} (buf : list A) t : t_fits t (length buf) = false ->
  exists k t', k < length buf /\ t_fits t k = true /\ t' = t_push t (firstn k buf) /\ t_open t' = false /\
  blockWrite buf t true = Ok (None, t') /\ blockWrite buf t false = Ok (Some k, t').
Proof.
  intros F. destruct (writeLoop_ok buf t 0) as (k & L & W & N & K).
  assert (H : k < length buf). { destruct (Nat.lt_ge_cases k (length buf)); auto. replace k with (length buf) in K by lia. congruence. }
  exists k, (t_push t (firstn k buf)). split; [exact H|]. split; [exact K|]. split; [reflexivity|]. split; [auto|].
  unfold blockWrite. destruct (Nat.eqb_spec (length buf) 0); [lia|]. rewrite W. cbn [obind Nat.add].
  destruct (Nat.eqb_spec k (length buf)); [lia|]. auto.
Qed.

Lemma copy_ok {A} : forall (src : list A) t limit count,
  exists k, copy src t limit count = Ok (count + k, skipn k src, t_push t (firstn k src)) /\ k <= length src /\
    t_fits t k = true /\ (match limit with Some m => count <= m -> count + k <= m | None => True end) /\
    (k < length src -> limit = Some (count + k) \/ t_open (t_push t (firstn k src)) = false \/ (exists m, limit = Some m /\ m < count)).
Proof.
  induction src as [|x src IH]; intros t limit count; cbn [copy].
  - exists 0. cbn. rewrite Nat.add_0_r, t_push_nil. repeat split; auto; try lia.
    + unfold t_fits. destruct (troom t); auto.
    + destruct limit; auto.
  - destruct (below count limit) eqn:B; [destruct (t_open t) eqn:O|]; cbn [andb].
    + rewrite (t_write_ok _ _ O). cbn [obind]. destruct (IH (t_push t [x]) limit (count + 1)) as (k & E & L & G & M & N).
      exists (S k). cbn [length firstn skipn]. rewrite E, !t_push_app in *. cbn [app] in *.
      split; [f_equal; f_equal; f_equal; lia|]. split; [lia|]. split.
      { unfold t_fits, t_push, t_open in *. destruct (troom t) as [[|r]|]; auto; try discriminate. cbn -[Nat.leb] in *. lia. }
      split.
      * destruct limit; auto. unfold below in B. apply Nat.ltb_lt in B. intros _. lia.
      * intros H. destruct N as [N|[N|(m & N & Q)]]; [lia|left; rewrite N; f_equal; lia|right; left; exact N|].
        subst limit. unfold below in B. apply Nat.ltb_lt in B. left. f_equal. lia.
    + exists 0. cbn [firstn skipn]. rewrite Nat.add_0_r, t_push_nil. repeat split; auto; try lia.
      * unfold t_fits. destruct (troom t); auto.
      * destruct limit; auto.
    + exists 0. cbn [firstn skipn]. rewrite Nat.add_0_r, t_push_nil. repeat split; auto; try lia.
      * unfold t_fits. destruct (troom t); auto.
      * destruct limit; auto.
      * intros _. unfold below in B. destruct limit as [m|]; [|discriminate]. apply Nat.ltb_ge in B.
        destruct (Nat.eq_dec m count) as [->|]; [left; auto|right; right; exists m; split; auto; lia].
Qed.

Lemma skipn_add {A} i j : forall l : list A, skipn j (skipn i l) = skipn (i + j) l.
Proof. induction i as [|i IH]; intros l; auto. destruct l; cbn; [apply skipn_nil|apply IH]. Qed.
Lemma firstn_add {A} i j : forall l : list A, firstn i l ++ firstn j (skipn i l) = firstn (i + j) l.
Proof. induction i as [|i IH]; intros l; auto. destruct l; cbn; [apply firstn_nil|f_equal; apply IH]. Qed.
Lemma blockCopyLoop_ok {A} : forall fuel (src buf : list A) t limit count, length src < fuel -> 1 <= length buf ->
  let n := match limit with Some m => min m (length src) | None => length src end in
  t_fits t n = true ->
  blockCopyLoop fuel src t buf limit count = Ok (Some count, skipn n src, t_push t (firstn n src)).
Proof.
  induction fuel as [|f IH]; intros src buf t limit count L B n F; [lia|].
  cbn [blockCopyLoop].
  destruct (match limit with Some 0 => true | _ => false end) eqn:Z.
  { destruct limit as [[|m]|]; try discriminate. cbn in n. subst n. cbn. now rewrite t_push_nil. }
  set (tr := match limit with Some m => if length buf <? m then length buf else m | None => length buf end).
  assert (T1 : 1 <= tr) by (unfold tr; destruct limit as [[|m]|]; try discriminate; auto; destruct (length buf <? S m); lia).
  assert (T2 : length (firstn tr buf) = tr).
  { rewrite firstn_length. unfold tr. destruct limit as [m|]; try lia. destruct (Nat.ltb_spec (length buf) m); lia. }
  assert (Goal : (let! (rd, head, src) := blockRead src (firstn tr buf) false in
            match rd with
            | None => Ok (None, src, t)
            | Some O => Ok (Some count, src, t)
            | Some rd =>
                let! (wr, t) := blockWrite (firstn rd head) t true in
                match wr with
                | None => Ok (None, src, t)
                | Some _ =>
                    blockCopyLoop f src t (head ++ skipn tr buf)
                      (match limit with Some m => Some (m - rd) | None => None end) count
                end
            end) = Ok (Some count, skipn n src, t_push t (firstn n src))); [|destruct limit as [[|m]|]; [discriminate|exact Goal|exact Goal]].
  rewrite blockRead_ok. rewrite T2. cbn [andb obind].
  destruct (min (length src) tr) as [|k] eqn:K.
  { destruct src as [|x src]; cbn in K; [|destruct tr; cbn in K; lia].
    rewrite !skipn_nil, firstn_nil, t_push_nil. auto. }
  assert (KL : S k <= length src) by lia. assert (KT : S k <= tr) by lia.
  assert (Hn : n = S k + (n - S k) /\ S k <= n).
  { assert (S k <= n); [|lia]. unfold n. unfold tr in KT. destruct limit as [m|]; [|lia]. destruct (Nat.ltb_spec (length buf) m); lia. }
  assert (Hd : firstn (S k) (firstn tr src ++ skipn (length src) (firstn tr buf)) = firstn (S k) src).
  { rewrite firstn_app, firstn_firstn, firstn_length. replace (min (S k) tr) with (S k) by lia.
    replace (S k - min tr (length src)) with 0 by lia. cbn [firstn]. now rewrite app_nil_r. }
  rewrite Hd. assert (Lk : length (firstn (S k) src) = S k) by (rewrite firstn_length; lia).
  rewrite blockWrite_fits by (rewrite Lk; apply (t_fits_le t n); [lia|exact F]). cbn [obind].
  assert (Sk : skipn tr src = skipn (S k) src).
  { destruct (Nat.le_ge_cases (length src) tr) as [Q|Q]; [rewrite !skipn_all2 by lia; auto|]. f_equal. lia. }
  rewrite Sk. rewrite IH.
  - replace (match match limit with Some m => Some (m - S k) | None => None end with
             | Some m => min m (length (skipn (S k) src)) | None => length (skipn (S k) src) end) with (n - S k)
      by (rewrite skipn_length; unfold n; destruct limit; lia).
    rewrite t_push_app. f_equal. f_equal; [f_equal|].
    + rewrite skipn_add. f_equal. lia.
    + f_equal. rewrite firstn_add. f_equal. lia.
  - rewrite skipn_length. lia.
  - rewrite !app_length, firstn_length, !skipn_length. rewrite T2. lia.
  - rewrite skipn_length. unfold t_fits, t_push in *. destruct (troom t) as [r|]; auto. cbn [troom]. rewrite Lk.
    apply Nat.leb_le. apply Nat.leb_le in F. unfold n in F. destruct limit; lia.
Qed.

(** ** The conversion filter *)
Section Conv.
  Context {I O : Type} (f : I -> O).
  (** what is still to be read *)
  Definition conv_rest (r : fread (I:=I) (O:=O) (S:=option I)) : list O :=
    match frBuf r with Fetched1 x => [x] | _ => [] end ++
    match frFlt r with Some x => [f x] | None => [] end ++ map f (frSrc r).

  Lemma conv_fetch y src : blockFetch (convFilter f) None (y :: src) = Ok (Some y, src).
  Proof. unfold blockFetch. cbn. destruct src; reflexivity. Qed.
  Lemma conv_op r o : exists r', fr_op (convFilter f) r o = Ok (fst (read_op (conv_rest r) o), r') /\
    conv_rest r' = snd (read_op (conv_rest r) o).
  Proof.
    destruct r as [src [p|] [|x|]], o; unfold conv_rest; cbn; unfold fr_getNext, fr_getBuffer; cbn; try (destruct src as [|y src]; cbn; rewrite ?conv_fetch; cbn);
      eexists; split; reflexivity.
  Qed.
  Lemma conv_ops : forall os r, exists r', fr_ops (convFilter f) r os = Ok (fst (read_ops (conv_rest r) os), r') /\
    conv_rest r' = snd (read_ops (conv_rest r) os).
  Proof.
    induction os as [|o os IH]; intros r; [exists r; auto|]. cbn [fr_ops read_ops].
    destruct (conv_op r o) as (r1 & E1 & R1). rewrite E1. cbn [obind].
    destruct (IH r1) as (r2 & E2 & R2). rewrite E2. cbn [obind]. exists r2. rewrite R1 in *.
    destruct (read_op (conv_rest r) o) as [a l]. cbn [fst snd] in *. destruct (read_ops l os). cbn in *. auto.
  Qed.

  Lemma conv_feed fuel t x : 1 <= fuel -> flushCycle (convFilter f) fuel (mkFwrite t (Some x)) =
    if t_open t then Ok (mkFwrite (t_push t [f x]) None) else Throw.
  Proof.
    intros H. destruct fuel as [|fuel]; [lia|]. unfold flushCycle. cbn. destruct (t_open t) eqn:E.
    - rewrite (t_write_ok _ _ E). cbn. destruct fuel; reflexivity.
    - now rewrite (t_write_full _ _ E).
  Qed.
  Lemma conv_write fuel t x : 1 <= fuel -> fw_write (convFilter f) fuel (mkFwrite t None) x =
    if t_open t then Ok (mkFwrite (t_push t [f x]) None) else Throw.
  Proof. intros H. unfold fw_write. cbn [fwFlt fwT convFilter needI finput obind]. apply (conv_feed _ _ _ H). Qed.
  Lemma conv_input s x xs : blockInput (convFilter f) s (x :: xs) = Ok (1, Some x).
  Proof. cbn. destruct xs; reflexivity. Qed.
  Lemma skipn_cons {X} (pre : list X) x post : skipn (length pre) (pre ++ x :: post) = x :: post.
  Proof. induction pre; auto. Qed.
  Lemma last_default {X} (l : list X) a b : l <> [] -> last l a = last l b.
  Proof. induction l as [|x l IH]; [congruence|]. intros _. destruct l; auto. cbn [last] in *. apply IH. discriminate. Qed.
  Definition pend (s : option I) : list O := match s with Some x => [f x] | None => [] end.

  (** the loop writes everything but the last item, which stays in the filter *)
  Lemma conv_loop : forall post pre x s t fuel, length post < fuel ->
    fw_loop (convFilter f) fuel (mkFwrite t s) (pre ++ x :: post) (length pre) true =
    if t_fits t (length (pend s) + length post)
    then Ok (length (pre ++ x :: post), mkFwrite (t_push t (pend s ++ map f (removelast (x :: post)))) (Some (last (x :: post) x)))
    else Throw.
  Proof.
    assert (Fl : forall fuel s t, 1 <= fuel -> (if needI (convFilter f) (fwFlt (mkFwrite t s)) then Ok (mkFwrite t s) else flushCycle (convFilter f) fuel (mkFwrite t s))
              = if t_fits t (length (pend s)) then Ok (mkFwrite (t_push t (pend s)) None) else Throw).
    { intros fuel [y|] t H; cbn [pend length fwFlt convFilter needI]; [rewrite (conv_feed _ _ _ H)|].
      - unfold t_fits, t_open. destruct (troom t) as [[|r]|]; auto.
      - rewrite t_push_nil. unfold t_fits. destruct (troom t); auto. }
    induction post as [|y post IH]; intros pre x s t fuel L; (destruct fuel as [|fuel]; [cbn in L; lia|]); cbn [fw_loop]; rewrite Fl by lia.
    - cbn [length]. rewrite Nat.add_0_r. destruct (t_fits t (length (pend s))); [|reflexivity]. cbn [obind fwFlt fwT].
      rewrite skipn_cons, conv_input. cbn [obind]. rewrite app_length. cbn [length]. rewrite Nat.ltb_irrefl. cbn [andb removelast map last]. now rewrite app_nil_r.
    - cbn [length]. destruct (t_fits t (length (pend s))) eqn:F1.
      + cbn [obind fwFlt fwT]. rewrite skipn_cons, conv_input. cbn [obind]. rewrite app_length. cbn [length].
        destruct (Nat.ltb_spec (length pre + 1) (length pre + S (S (length post)))); [|lia]. cbn [andb].
        replace (pre ++ x :: y :: post) with ((pre ++ [x]) ++ y :: post) by (rewrite <- app_assoc; auto).
        replace (length pre + 1) with (length (pre ++ [x])) by (rewrite app_length; auto).
        rewrite IH by (cbn in L; lia). cbn [pend length]. rewrite !app_length. cbn [length].
        replace (t_fits (t_push t (pend s)) (1 + length post)) with (t_fits t (length (pend s) + S (length post))).
        * destruct (t_fits t (length (pend s) + S (length post))); auto. rewrite t_push_app.
          replace (length pre + 1 + S (length post)) with (length pre + S (S (length post))) by lia.
          replace (last (x :: y :: post) x) with (last (y :: post) y); [reflexivity|].
          rewrite (last_default (y :: post) y x) by discriminate. reflexivity.
        * unfold t_fits, t_push in *. destruct (troom t) as [r|]; auto. cbn [troom]. apply Nat.leb_le in F1.
          destruct (Nat.leb_spec (length (pend s) + S (length post)) r), (Nat.leb_spec (1 + length post) (r - length (pend s))); auto; lia.
      + cbn [obind]. replace (t_fits t (length (pend s) + S (length post))) with false; auto. symmetry.
        destruct (t_fits t (length (pend s) + S (length post))) eqn:Q; auto. rewrite (t_fits_le t (length (pend s) + S (length post)) (length (pend s)) ltac:(lia) Q) in F1. discriminate.
  Qed.

  Lemma conv_blockWrite_all t arr :
    fw_blockWrite_const (convFilter f) (mkFwrite t None) arr true =
    if t_fits t (length arr) then Ok (length arr, mkFwrite (t_push t (map f arr)) None) else Throw.
  Proof.
    unfold fw_blockWrite_const. destruct arr as [|x post].
    { cbn. rewrite t_push_nil. unfold t_fits. destruct (troom t); auto. }
    cbn [length Nat.eqb]. pose proof (conv_loop post [] x None t (S (S (length post))) ltac:(lia)) as C.
    cbn [app length pend Nat.add] in C. rewrite C.
    destruct (t_fits t (length post)) eqn:F1.
    - cbn [obind fwFlt convFilter needI]. rewrite conv_feed by lia.
      assert (Q : t_open (t_push t (map f (removelast (x :: post)))) = t_fits t (S (length post))).
      { assert (R : length (map f (removelast (x :: post))) = length post).
        { rewrite map_length. clear. revert x. induction post as [|y post IH]; intros; auto. cbn [length]. rewrite <- (IH y). reflexivity. }
        unfold t_open, t_push, t_fits in *. destruct (troom t) as [r|]; auto. cbn [troom]. rewrite R. apply Nat.leb_le in F1.
        destruct (r - length post) eqn:Z, (Nat.leb_spec (S (length post)) r); auto; lia. }
      rewrite Q. destruct (t_fits t (S (length post))); [|reflexivity]. cbn [obind]. rewrite t_push_app. f_equal. f_equal. f_equal.
      change [f (last (x :: post) x)] with (map f [last (x :: post) x]). rewrite <- map_app. f_equal. f_equal.
      rewrite <- app_removelast_last by discriminate. auto.
    - cbn [obind]. destruct (t_fits t (S (length post))) eqn:Z; auto. rewrite (t_fits_le t (S (length post)) (length post) ltac:(lia) Z) in F1. discriminate.
  Qed.

  (** block read without a fetched item, as long as the source has enough *)
  Lemma conv_fr_loop : forall post pre src s fuel, length post < fuel -> 0 < length post ->
    length post <= length (match s with Some x => [x] | None => [] end ++ src) ->
    exists src' s', fr_loop (convFilter f) fuel src s (pre ++ post) (length pre) false =
      Ok (length (pre ++ post), pre ++ firstn (length post) (pend s ++ map f src), (s', src')) /\
      pend s' ++ map f src' = skipn (length post) (pend s ++ map f src).
  Proof.
    induction post as [|y post IH]; intros pre src s fuel L P N; [cbn in P; lia|].
    destruct fuel as [|fuel]; [cbn in L; lia|]. cbn [fr_loop].
    assert (E : exists x src1, (if hasO (convFilter f) s then Ok (s, src) else blockFetch (convFilter f) s src) = Ok (Some x, src1)
              /\ pend s ++ map f src = f x :: map f src1 /\ match s with Some x => [x] | None => [] end ++ src = x :: src1).
    { destruct s as [x|]; [exists x, src; cbn; auto|]. destruct src as [|x src]; [cbn in N; lia|]. exists x, src. cbn.
      unfold blockFetch. cbn. destruct src; cbn; auto. }
    destruct E as (x & src1 & E & Em & Es). rewrite E, Em. rewrite Es in N. cbn [obind].
    cbn [blockOutput convFilter foutput obind hasO needI]. rewrite andb_false_r.
    destruct (Nat.ltb_spec (length pre) (length (pre ++ y :: post))) as [H|H]; [|rewrite app_length in H; cbn in H; lia].
    cbn [obind]. rewrite upd_app. cbn [negb andb].
    destruct post as [|z post].
    - destruct (Nat.ltb_spec (length pre + (0 + 1)) (length (pre ++ [f x]))) as [Q|Q]; [rewrite app_length in Q; cbn in Q; lia|].
      exists src1, None. split; [|reflexivity]. rewrite app_length. reflexivity.
    - destruct (Nat.ltb_spec (length pre + (0 + 1)) (length (pre ++ f x :: z :: post))) as [Q|Q]; [|rewrite app_length in Q; cbn in Q; lia].
      replace (pre ++ f x :: z :: post) with ((pre ++ [f x]) ++ z :: post) by (rewrite <- app_assoc; auto).
      replace (length pre + (0 + 1)) with (length (pre ++ [f x])) by (rewrite app_length; cbn; lia).
      destruct (IH (pre ++ [f x]) src1 None fuel) as (src2 & s2 & E2 & R2); [cbn in *; lia|cbn; lia|cbn in *; lia|].
      change (mkFilter _ _ _ _ _) with (convFilter f). rewrite E2. exists src2, s2. cbn [pend app] in *. cbn [length firstn skipn] in *.
      split; [|exact R2]. rewrite !app_length, <- !app_assoc. cbn [app length]. f_equal. f_equal. f_equal. lia.
  Qed.
End Conv.
