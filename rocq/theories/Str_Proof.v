(** Proofs about the strings with shared buffers. *)
From Coq Require Import ZArith Lia.
From Verif Require Import Common Str_Spec Str_Model.
Local Open Scope Z_scope.

(** ** Counting the pointers to a buffer *)

Definition is (p : nat) (o : option nat) : nat := match o with Some q => if (p =? q)%nat then 1 else 0 | None => 0 end.
Fixpoint refs (l : list (option nat)) (p : nat) : nat := match l with [] => O | o :: l => (is p o + refs l p)%nat end.

Lemma is_same p : is p (Some p) = 1%nat.
Proof. cbn. rewrite Nat.eqb_refl. reflexivity. Qed.
Lemma is_other p q : p <> q -> is p (Some q) = 0%nat.
Proof. intros H. cbn. apply Nat.eqb_neq in H. rewrite H. reflexivity. Qed.
Lemma is_le p o : (is p o <= 1)%nat.
Proof. destruct o as [q|]; cbn; [destruct (p =? q)%nat|]; lia. Qed.
Lemma refs_app l l' p : refs (l ++ l') p = (refs l p + refs l' p)%nat.
Proof. induction l as [|o l IH]; cbn [refs app]; lia. Qed.
Lemma refs_upd l v x p : (v < length l)%nat ->
  (refs (upd l v x) p + is p (nth v l None) = refs l p + is p x)%nat.
Proof.
  revert v. induction l as [|o l IH]; intros [|v] H; cbn [length] in H; try lia; cbn [upd refs nth]; [lia|].
  pose proof (IH v ltac:(lia)). lia.
Qed.
Lemma refs_nth l v p : nth v l None = Some p -> (1 <= refs l p)%nat.
Proof.
  revert v. induction l as [|o l IH]; intros [|v] H; cbn [nth refs] in *; try discriminate.
  - subst o. rewrite is_same. lia.
  - pose proof (IH v H). lia.
Qed.
Lemma refs_repeat n p : refs (repeat None n) p = 0%nat.
Proof. induction n; cbn; auto. Qed.

(** ** The heap and all the pointers into it *)

Definition hinv (h : list (option buf)) (l : list (option nat)) : Prop :=
  forall p, match nth p h None with Some b => cnt b = refs l p /\ (1 <= cnt b)%nat | None => refs l p = 0%nat end.
Definition body (h : list (option buf)) (p : nat) : option (nat * list Z) :=
  match nth p h None with Some b => Some (cap b, txt b) | None => None end.

Lemma hinv_same h l l' : (forall p, refs l p = refs l' p) -> hinv h l -> hinv h l'.
Proof. intros E H p. specialize (H p). rewrite <- E. exact H. Qed.
Lemma nth_len (h : list (option buf)) p b : nth p h None = Some b -> (p < length h)%nat.
Proof. intros E. destruct (Nat.lt_ge_cases p (length h)) as [L|L]; [exact L|]. rewrite nth_overflow in E by lia. discriminate. Qed.
Lemma nth_upd_case (h : list (option buf)) p q x : (q < length h)%nat ->
  nth p (upd h q x) None = if (p =? q)%nat then x else nth p h None.
Proof.
  intros L. destruct (Nat.eqb_spec p q) as [->|N]; [apply nth_upd_eq; exact L | apply nth_upd_ne; auto].
Qed.
Lemma hinv_live h l p : hinv h l -> (1 <= refs l p)%nat ->
  exists b, nth p h None = Some b /\ cnt b = refs l p.
Proof.
  intros H R. specialize (H p). destruct (nth p h None) as [b|]; [exists b; tauto | lia].
Qed.

Lemma addRef_ok h l o : hinv h l -> (forall p, o = Some p -> (1 <= refs l p)%nat) ->
  exists h', addRef h o = Ok h' /\ hinv h' (o :: l) /\ (forall q, body h' q = body h q).
Proof.
  intros H R. destruct o as [p|]; cbn [addRef].
  2: { exists h. repeat split; auto. }
  destruct (hinv_live h l p H (R p eq_refl)) as (b & E & C).
  unfold bget. rewrite E. cbn [obind]. eexists; split; [reflexivity|].
  pose proof (nth_len h p b E) as L. split.
  - intros q. rewrite nth_upd_case by exact L. cbn [refs is]. destruct (Nat.eqb_spec q p) as [->|N].
    + cbn [cnt]. lia.
    + exact (H q).
  - intros q. unfold body. rewrite nth_upd_case by exact L. destruct (Nat.eqb_spec q p) as [->|N]; [rewrite E|]; reflexivity.
Qed.

Lemma release_ok h l o : hinv h (o :: l) ->
  exists h', release h o = Ok h' /\ hinv h' l /\ (forall q, (1 <= refs l q)%nat -> body h' q = body h q).
Proof.
  intros H. destruct o as [p|]; cbn [release].
  2: { exists h. repeat split; auto. }
  assert (R : (1 <= refs (Some p :: l) p)%nat) by (cbn [refs]; rewrite is_same; lia).
  destruct (hinv_live _ _ p H R) as (b & E & C). cbn [refs] in C. rewrite is_same in C.
  pose proof (nth_len h p b E) as L.
  unfold bget. rewrite E. cbn [obind]. rewrite C. change (1 + refs l p)%nat with (S (refs l p)).
  destruct (refs l p) as [|n] eqn:N.
  - eexists; split; [reflexivity|]. split.
    + intros q. rewrite nth_upd_case by exact L. destruct (Nat.eqb_spec q p) as [->|D]; [exact N|].
      specialize (H q). cbn [refs] in H. rewrite is_other in H by exact D. exact H.
    + intros q Q. unfold body. rewrite nth_upd_ne by (intros ->; lia). reflexivity.
  - eexists; split; [reflexivity|]. split.
    + intros q. rewrite nth_upd_case by exact L. destruct (Nat.eqb_spec q p) as [->|D]; [cbn [cnt]; lia|].
      specialize (H q). cbn [refs] in H. rewrite is_other in H by exact D. exact H.
    + intros q Q. unfold body. rewrite nth_upd_case by exact L. destruct (Nat.eqb_spec q p) as [->|D]; [rewrite E|]; reflexivity.
Qed.

Lemma alloc_ok h l c t : hinv h l ->
  let (h1, q) := balloc h c t in
  exists h', addRef h1 (Some q) = Ok h' /\ hinv h' (Some q :: l) /\ body h' q = Some (c, t) /\
    refs l q = 0%nat /\ (forall p, p <> q -> body h' p = body h p).
Proof.
  intros H. unfold balloc. cbn [addRef]. unfold bget.
  assert (E : nth (length h) (h ++ [Some (mkBuf 0 c t)]) None = Some (mkBuf 0 c t))
    by (rewrite app_nth2, Nat.sub_diag by lia; reflexivity).
  rewrite E. cbn [obind cnt cap txt]. eexists; split; [reflexivity|].
  assert (L : (length h < length (h ++ [Some (mkBuf 0 c t)]))%nat) by (rewrite app_length; cbn; lia).
  assert (Z0 : refs l (length h) = 0%nat) by (specialize (H (length h)); rewrite nth_overflow in H by lia; exact H).
  assert (O : forall p, p <> length h -> nth p (h ++ [Some (mkBuf 0 c t)]) None = nth p h None).
  { intros p N. destruct (Nat.lt_ge_cases p (length h)) as [A|A]; [apply app_nth1; exact A|].
    rewrite app_nth2 by lia. destruct (p - length h)%nat as [|k] eqn:K; [lia|]. cbn.
    rewrite nth_overflow by lia. destruct k; reflexivity. }
  split; [|split; [|split]].
  - intros p. rewrite nth_upd_case by exact L. cbn [refs is]. destruct (Nat.eqb_spec p (length h)) as [->|N].
    + cbn [cnt]. lia.
    + rewrite O by exact N. exact (H p).
  - unfold body. rewrite nth_upd_eq by exact L. reflexivity.
  - exact Z0.
  - intros p N. unfold body. rewrite nth_upd_ne by auto. rewrite O by exact N. reflexivity.
Qed.

(** a change of the characters *)
Lemma change_ok h l q b c t : hinv h l -> nth q h None = Some b ->
  let h' := upd h q (Some (mkBuf (cnt b) c t)) in
  hinv h' l /\ body h' q = Some (c, t) /\ (forall p, p <> q -> body h' p = body h p).
Proof.
  intros H E h'. pose proof (nth_len h q b E) as L. subst h'. split; [|split].
  - intros p. rewrite nth_upd_case by exact L. specialize (H p). destruct (Nat.eqb_spec p q) as [->|N]; [|exact H].
    rewrite E in H. exact H.
  - unfold body. rewrite nth_upd_eq by exact L. reflexivity.
  - intros p N. unfold body. rewrite nth_upd_ne by auto. reflexivity.
Qed.
Lemma body_get h q c t : body h q = Some (c, t) -> exists b, nth q h None = Some b /\ cap b = c /\ txt b = t.
Proof. unfold body. destruct (nth q h None) as [b|]; [|discriminate]. intros E. injection E as <- <-. eauto. Qed.

Section Nz.
  Variable nz : bool.

  Definition enc (t : list Z) : list Z := if nz then t ++ [0] else t.
  Lemma enc_length t : length (enc t) = stringLen nz (length t).
  Proof. unfold enc, stringLen. destruct nz; [rewrite app_length; cbn; lia | reflexivity]. Qed.

  (** a pointer shows a text *)
  Definition rep (h : list (option buf)) (o : option nat) (t : list Z) : Prop :=
    match o with None => t = [] | Some p => exists c, body h p = Some (c, enc t) end.
  Definition inv (s : state) (vs : list (list Z)) : Prop :=
    length (vars s) = length vs /\ hinv (heap s) (vars s) /\
    (forall v, (v < length vs)%nat -> rep (heap s) (ptr s v) (value vs v)) /\
    Forall (fun t => Z.of_nat (length t) < 2 ^ 63) vs.

  Lemma rep_move h h' o t : (forall p, o = Some p -> body h' p = body h p) -> rep h o t -> rep h' o t.
  Proof. destruct o as [p|]; cbn [rep]; [|auto]. intros E (c & R). exists c. rewrite (E p eq_refl). exact R. Qed.

  Lemma inv_start n : inv (start n) (repeat [] n).
  Proof.
    unfold start, inv. cbn [vars heap]. rewrite !repeat_length. split; [reflexivity|]. split; [|split].
    - intros p. destruct p; cbn [nth]; apply refs_repeat.
    - intros v L. unfold ptr, value. cbn [vars].
      assert (A : nth v (repeat (@None nat) n) None = None).
      { destruct (nth_in_or_default v (repeat (@None nat) n) None) as [I|D]; [exact (repeat_spec _ _ _ I) | exact D]. }
      rewrite A. cbn [rep].
      destruct (nth_in_or_default v (repeat (@nil Z) n) []) as [I|D]; [exact (repeat_spec _ _ _ I) | exact D].
    - apply Forall_forall. intros t I. rewrite (repeat_spec _ _ _ I). cbn. lia.
  Qed.

  (** ** A variable gets a new pointer *)
  Lemma inv_set s vs h v o t : inv s vs -> (v < length vs)%nat -> Z.of_nat (length t) < 2 ^ 63 ->
    hinv h (upd (vars s) v o) -> rep h o t ->
    (forall w p, w <> v -> ptr s w = Some p -> body h p = body (heap s) p) ->
    inv (mkState h (upd (vars s) v o)) (upd vs v t).
  Proof.
    intros (L & H & R & B) V T H' R' E. unfold inv. cbn [vars heap]. rewrite !upd_length.
    split; [exact L|]. split; [exact H'|]. split.
    - intros w W. unfold ptr, value. cbn [vars]. destruct (Nat.eq_dec w v) as [->|N].
      + rewrite !nth_upd_eq by lia. exact R'.
      + rewrite !nth_upd_ne by auto. apply (rep_move (heap s)); [|exact (R w W)].
        intros p P. exact (E w p N P).
    - clear - B T. revert v. induction B as [|x vs X B IH]; intros [|v]; cbn [upd]; auto.
  Qed.

  Lemma inv_bound s vs v : inv s vs -> Z.of_nat (length (value vs v)) < 2 ^ 63.
  Proof.
    intros (_ & _ & _ & B). unfold value. destruct (nth_in_or_default v vs []) as [I|D].
    - rewrite Forall_forall in B. exact (B _ I).
    - rewrite D. cbn. lia.
  Qed.
  Lemma refs_other s v o w p : (v < length (vars s))%nat -> w <> v -> ptr s w = Some p -> (1 <= refs (upd (vars s) v o) p)%nat.
  Proof. intros L N P. apply (refs_nth _ w). unfold ptr in P. rewrite nth_upd_ne by auto. exact P. Qed.

  (** ** Isolation *)
  Lemma isolate_ok s vs v : inv s vs -> (v < length vs)%nat ->
    exists s', isolate s v = Ok s' /\ inv s' vs /\
      (forall p, ptr s' v = Some p -> refs (vars s') p = 1%nat) /\
      (forall o, ptr s v = o -> o <> None -> ptr s' v <> None) /\
      (forall w, w <> v -> ptr s' w = ptr s w) /\ length (vars s') = length (vars s).
  Proof.
    intros I V. pose proof I as (L & H & R & B). unfold isolate.
    destruct (ptr s v) as [p|] eqn:P.
    2: { exists s. split; [reflexivity|]. split; [exact I|]. split; [rewrite P; discriminate|].
         split; [intros o <- X; contradiction|]. split; [reflexivity|]. reflexivity. }
    pose proof (refs_nth _ _ _ P) as Q.
    destruct (hinv_live _ _ _ H Q) as (b & E & C). unfold bget. rewrite E. cbn [obind].
    destruct (Nat.ltb_spec 1 (cnt b)) as [G|G].
    2: { exists s. split; [reflexivity|]. split; [exact I|].
         split; [rewrite P; intros q X; injection X as <-; lia|].
         split; [intros o <- X; rewrite P; exact X|]. split; [reflexivity|]. reflexivity. }
    pose proof (alloc_ok (heap s) (vars s) (length (txt b)) (txt b) H) as A.
    destruct (balloc (heap s) (length (txt b)) (txt b)) as [h1 q] eqn:EA.
    destruct A as (h2 & A1 & A2 & A3 & A4 & A5). rewrite A1. cbn [obind].
    unfold takeTemp, setPtr.
    destruct (addRef_ok h2 (Some q :: vars s) (Some q) A2) as (h3 & B1 & B2 & B3).
    { intros x X. injection X as <-. cbn [refs]. rewrite is_same. lia. }
    rewrite B1. cbn [obind]. rewrite P.
    assert (H4 : hinv h3 (Some p :: Some q :: upd (vars s) v (Some q))).
    { apply (hinv_same _ _ _) with (2 := B2). intros x. cbn [refs].
      pose proof (refs_upd (vars s) v (Some q) x ltac:(lia)) as U. unfold ptr in P. rewrite P in U. lia. }
    destruct (release_ok _ _ _ H4) as (h4 & C1 & C2 & C3). rewrite C1. cbn [obind].
    destruct (release_ok _ _ _ C2) as (h5 & D1 & D2 & D3). rewrite D1. cbn [obind].
    eexists; split; [reflexivity|].
    assert (QQ : refs (upd (vars s) v (Some q)) q = 1%nat).
    { pose proof (refs_upd (vars s) v (Some q) q ltac:(lia)) as U. unfold ptr in P. rewrite P, is_same in U.
      assert (N : q <> p) by (intros ->; lia). rewrite is_other in U by exact N. lia. }
    split; [|split; [|split; [|split]]].
    - assert (W : upd vs v (value vs v) = vs).
      { unfold value. clear - V. revert v V. induction vs as [|x vs IH]; intros [|v] V; cbn [length] in V; try lia; cbn [upd nth]; [reflexivity|].
        rewrite IH by lia. reflexivity. }
      rewrite <- W. apply inv_set; [exact I|exact V|exact (inv_bound s vs v I)|exact D2| |].
      + cbn [rep]. pose proof (R v V) as RV. rewrite P in RV. cbn [rep] in RV. destruct RV as (c & RV).
        unfold body in RV. rewrite E in RV. injection RV as _ RV.
        exists (length (txt b)). rewrite D3 by lia. rewrite C3 by (cbn [refs]; lia). rewrite B3, A3, RV. reflexivity.
      + intros w x N X. pose proof (refs_other s v (Some q) w x ltac:(lia) N X) as Y.
        rewrite D3 by exact Y. rewrite C3 by (cbn [refs]; lia). rewrite B3. apply A5.
        intros ->. pose proof (refs_nth _ _ _ X). lia.
    - unfold ptr. cbn [vars]. rewrite nth_upd_eq by lia. intros x X. injection X as <-. exact QQ.
    - unfold ptr. cbn [vars]. rewrite nth_upd_eq by lia. discriminate.
    - intros w N. unfold ptr. cbn [vars]. rewrite nth_upd_ne by auto. reflexivity.
    - cbn [vars]. apply upd_length.
  Qed.

  (** ** Writing through an iterator *)
  Lemma createBufferIter_ok s vs v n : inv s vs -> (v < length vs)%nat ->
    exists h q, createBufferIter nz s v n = Ok (mkState h (upd (vars s) v (Some q)), q) /\
      hinv h (Some q :: upd (vars s) v (Some q)) /\ body h q = Some (stringLen nz n, []) /\
      refs (vars s) q = 0%nat /\
      (forall p, p <> q -> (1 <= refs (upd (vars s) v (Some q)) p)%nat -> body h p = body (heap s) p).
  Proof.
    intros I V. pose proof I as (L & H & R & B). unfold createBufferIter.
    pose proof (alloc_ok (heap s) (vars s) (stringLen nz n) [] H) as A.
    destruct (balloc (heap s) (stringLen nz n) []) as [h1 q].
    destruct A as (h2 & A1 & A2 & A3 & A4 & A5). rewrite A1. cbn [obind]. unfold setPtr.
    destruct (addRef_ok h2 (Some q :: vars s) (Some q) A2) as (h3 & B1 & B2 & B3).
    { intros x X. injection X as <-. cbn [refs]. rewrite is_same. lia. }
    rewrite B1. cbn [obind].
    assert (H4 : hinv h3 (ptr s v :: Some q :: upd (vars s) v (Some q))).
    { apply (hinv_same _ _ _) with (2 := B2). intros x. cbn [refs].
      pose proof (refs_upd (vars s) v (Some q) x ltac:(lia)) as U. unfold ptr. lia. }
    destruct (release_ok _ _ _ H4) as (h4 & C1 & C2 & C3). rewrite C1. cbn [obind heap vars].
    destruct (addRef_ok h4 _ (Some q) C2) as (h5 & D1 & D2 & D3).
    { intros x X. injection X as <-. cbn [refs]. rewrite is_same. lia. }
    rewrite D1. cbn [obind].
    destruct (release_ok _ _ _ D2) as (h6 & E1 & E2 & E3). rewrite E1. cbn [obind].
    exists h6, q. split; [reflexivity|]. split; [exact E2|]. split; [|split; [exact A4|]].
    - rewrite E3 by (cbn [refs]; rewrite is_same; lia). rewrite D3. rewrite C3 by (cbn [refs]; rewrite is_same; lia).
      rewrite B3. exact A3.
    - intros p N Q. rewrite E3 by (cbn [refs]; lia). rewrite D3. rewrite C3 by (cbn [refs]; lia). rewrite B3. apply A5. exact N.
  Qed.

  Lemma write_ok h vs' l q c t x : hinv h l -> body h q = Some (c, t) ->
    exists h', write (mkState h vs') q x = Ok (mkState h' vs') /\ hinv h' l /\
      body h' q = Some (c, t ++ firstn (c - length t) [x]) /\ (forall p, p <> q -> body h' p = body h p).
  Proof.
    intros H E. destruct (body_get _ _ _ _ E) as (b & G & <- & <-). unfold write, bget. cbn [heap vars]. rewrite G. cbn [obind].
    eexists; split; [reflexivity|]. unfold badd. exact (change_ok h l q b _ _ H G).
  Qed.
  Lemma render_ok h vs' l q n t0 t : hinv h l -> body h q = Some (stringLen nz n, t0) -> (length t0 <= n)%nat ->
    exists h', render nz (mkState h vs') q t = Ok (mkState h' vs') /\ hinv h' l /\
      body h' q = Some (stringLen nz n, t0 ++ firstn (n - length t0) t) /\ (forall p, p <> q -> body h' p = body h p).
  Proof.
    revert h t0. induction t as [|x t IH]; intros h t0 H E N; cbn [render].
    - exists h. rewrite firstn_nil, app_nil_r. auto.
    - destruct (body_get _ _ _ _ E) as (b & G & C & T). unfold bget. cbn [heap]. rewrite G. cbn [obind].
      unfold hasItems. rewrite C, T.
      assert (K : (stringLen nz n - (if nz then 1 else 0))%nat = n) by (unfold stringLen; destruct nz; lia).
      rewrite K. destruct (Nat.ltb_spec (length t0) n) as [M|M].
      + destruct (write_ok h vs' l q _ _ x H E) as (h1 & W1 & W2 & W3 & W4). rewrite W1. cbn [obind].
        assert (F : firstn (stringLen nz n - length t0) [x] = [x]).
        { apply firstn_all2. cbn [length]. unfold stringLen. destruct nz; lia. }
        rewrite F in W3.
        destruct (IH h1 (t0 ++ [x]) W2 W3) as (h2 & V1 & V2 & V3 & V4); [rewrite app_length; cbn [length]; lia|].
        exists h2. split; [exact V1|]. split; [exact V2|]. split.
        * rewrite V3, app_length. cbn [length]. rewrite <- app_assoc. do 3 f_equal.
          replace (n - length t0)%nat with (S (n - (length t0 + 1))) by lia. reflexivity.
        * intros p P. rewrite V4, W4; auto.
      + exists h. split; [reflexivity|]. split; [exact H|]. split; [|auto].
        replace (n - length t0)%nat with 0%nat by lia. cbn [firstn]. rewrite app_nil_r. exact E.
  Qed.
  Lemma endIter_ok h vs' l q c t : hinv h (Some q :: l) -> (1 <= refs l q)%nat -> body h q = Some (c, t) ->
    exists h', endIter nz (mkState h vs') q = Ok (mkState h' vs') /\ hinv h' l /\
      body h' q = Some (c, t ++ (if nz then firstn (c - length t) [0] else [])) /\
      (forall p, p <> q -> (1 <= refs l p)%nat -> body h' p = body h p).
  Proof.
    intros H R E. unfold endIter. destruct nz.
    - destruct (write_ok h vs' _ q _ _ 0 H E) as (h1 & W1 & W2 & W3 & W4). rewrite W1. cbn [obind heap vars].
      destruct (release_ok _ _ _ W2) as (h2 & R1 & R2 & R3). rewrite R1. cbn [obind].
      exists h2. split; [reflexivity|]. split; [exact R2|]. split; [rewrite R3; auto|].
      intros p P Q. rewrite R3 by exact Q. auto.
    - cbn [obind heap vars]. destruct (release_ok _ _ _ H) as (h2 & R1 & R2 & R3). rewrite R1. cbn [obind].
      exists h2. split; [reflexivity|]. split; [exact R2|]. split; [rewrite R3, app_nil_r; auto|].
      intros p P Q. auto.
  Qed.

  Lemma stream_ok s vs v n t : inv s vs -> (v < length vs)%nat -> Z.of_nat n < 2 ^ 63 ->
    exists s' q, stream nz s v n t = Ok s' /\ vars s' = upd (vars s) v (Some q) /\ inv s' (upd vs v (firstn n t)).
  Proof.
    intros I V N. pose proof I as (L & H & R & B). unfold stream.
    destruct (createBufferIter_ok s vs v n I V) as (h & q & C1 & C2 & C3 & C4 & C5). rewrite C1. cbn [obind].
    destruct (render_ok h (upd (vars s) v (Some q)) _ q n [] t C2 C3) as (h1 & R1 & R2 & R3 & R4); [cbn; lia|].
    rewrite R1. cbn [obind]. cbn [length app] in R3. rewrite Nat.sub_0_r in R3.
    assert (Q : (1 <= refs (upd (vars s) v (Some q)) q)%nat) by (apply (refs_nth _ v); apply nth_upd_eq; lia).
    destruct (endIter_ok h1 (upd (vars s) v (Some q)) _ q _ _ R2 Q R3) as (h2 & E1 & E2 & E3 & E4). rewrite E1.
    eexists _, q. split; [reflexivity|]. split; [reflexivity|].
    apply inv_set; [exact I|exact V| |exact E2| |].
    - rewrite firstn_length. lia.
    - cbn [rep]. eexists. rewrite E3. do 2 f_equal. unfold enc. rewrite firstn_length. unfold stringLen.
      destruct nz; [|apply app_nil_r]. f_equal.
      apply firstn_all2. cbn [length]. lia.
    - intros w p W P.
      pose proof (refs_other s v (Some q) w p ltac:(lia) W P) as X.
      assert (D : p <> q) by (intros ->; pose proof (refs_nth _ _ _ P); lia).
      rewrite E4, R4, C5; auto.
  Qed.

  (** a temporary variable behind the others *)
  Lemma inv_push s vs o t h : inv s vs -> hinv h (vars s ++ [o]) -> rep h o t -> Z.of_nat (length t) < 2 ^ 63 ->
    (forall p, body h p = body (heap s) p) -> inv (mkState h (vars s ++ [o])) (vs ++ [t]).
  Proof.
    intros (L & H & R & B) H' RO T E. unfold inv. cbn [vars heap]. rewrite !app_length. cbn [length].
    split; [lia|]. split; [exact H'|]. split.
    - intros v V. unfold ptr, value. cbn [vars]. destruct (Nat.lt_ge_cases v (length vs)) as [A|A].
      + rewrite !app_nth1 by lia. apply (rep_move (heap s)); [auto | exact (R v A)].
      + assert (v = length vs) by lia. subst v. rewrite app_nth2 by lia. rewrite app_nth2 by lia.
        rewrite L, Nat.sub_diag. exact RO.
    - apply Forall_app. auto.
  Qed.
  (** its value goes to a variable and it ends *)
  Lemma finish_ok s vs x v : inv s (vs ++ [x]) -> (v < length vs)%nat ->
    exists s', (let! h := setPtr (heap s) (ptr s v) (ptr s (length vs)) in
                let! h := release h (ptr s (length vs)) in
                Ok (mkState h (removelast (upd (vars s) v (ptr s (length vs)))))) = Ok s' /\ inv s' (upd vs v x).
  Proof.
    intros I V. pose proof I as (L & H & R & B). rewrite app_length in L. cbn [length] in L.
    set (o := ptr s (length vs)).
    destruct (exists_last (l := vars s)) as (l & o' & E). { destruct (vars s); [cbn in L; lia|discriminate]. }
    assert (LL : length l = length vs) by (rewrite E, app_length in L; cbn in L; lia).
    assert (OO : o = o') by (unfold o, ptr; rewrite E, app_nth2, LL, Nat.sub_diag by lia; reflexivity).
    assert (PV : ptr s v = nth v l None) by (unfold ptr; rewrite E, app_nth1 by lia; reflexivity).
    unfold setPtr.
    destruct (addRef_ok (heap s) (vars s) o H) as (h1 & A1 & A2 & A3). { intros p P. exact (refs_nth _ _ _ P). }
    rewrite A1. cbn [obind].
    assert (U : upd (vars s) v o = upd l v o ++ [o]).
    { rewrite E, OO. clear - V LL. revert v V. rewrite <- LL. clear LL. induction l as [|a l IH]; intros [|v] V; cbn [length] in V; try lia; cbn [upd app]; [reflexivity|].
      rewrite IH by lia. reflexivity. }
    assert (H2 : hinv h1 (ptr s v :: o :: upd l v o)).
    { apply (hinv_same _ _ _) with (2 := A2). intros x'. rewrite E, PV. cbn [refs]. rewrite refs_app. cbn [refs].
      pose proof (refs_upd l v o x' ltac:(lia)) as W. rewrite <- OO. lia. }
    destruct (release_ok _ _ _ H2) as (h2 & B1 & B2 & B3). rewrite B1. cbn [obind].
    destruct (release_ok _ _ _ B2) as (h3 & C1 & C2 & C3). rewrite C1. cbn [obind].
    eexists; split; [reflexivity|]. rewrite U, removelast_last.
    assert (BB : forall p, (1 <= refs (upd l v o) p)%nat -> body h3 p = body (heap s) p).
    { intros p P. rewrite C3 by exact P. rewrite B3 by (cbn [refs]; lia). apply A3. }
    unfold inv. cbn [vars heap]. rewrite !upd_length. split; [exact LL|]. split; [exact C2|]. split.
    - intros w W. unfold ptr, value. cbn [vars]. destruct (Nat.eq_dec w v) as [->|N].
      + rewrite !nth_upd_eq by lia. pose proof (R (length vs)) as RR. rewrite app_length in RR. specialize (RR ltac:(cbn; lia)).
        fold o in RR. unfold value in RR. rewrite app_nth2, Nat.sub_diag in RR by lia. cbn [nth] in RR.
        apply (rep_move (heap s)); [|exact RR]. intros p P. apply BB. apply (refs_nth _ v). rewrite nth_upd_eq by lia. exact P.
      + rewrite !nth_upd_ne by auto. pose proof (R w) as RR. rewrite app_length in RR. specialize (RR ltac:(lia)).
        unfold ptr, value in RR. rewrite E, !app_nth1 in RR by lia.
        apply (rep_move (heap s)); [|exact RR]. intros p P. apply BB. apply (refs_nth _ w). rewrite nth_upd_ne by auto. exact P.
    - apply Forall_app in B as [B X]. inversion X as [|? ? X1 _]. subst.
      clear - B X1. revert v. induction B as [|y vs Y B IH]; intros [|v]; cbn [upd]; auto.
  Qed.

  Lemma load_ok s vs v t : inv s vs -> (v < length vs)%nat -> Z.of_nat (length t) < 2 ^ 63 ->
    exists s', load nz s v t = Ok s' /\ inv s' (upd vs v t).
  Proof.
    intros I V N. pose proof I as (L & H & R & B). unfold load.
    assert (I2 : inv (mkState (heap s) (vars s ++ [None])) (vs ++ [[]])).
    { apply inv_push; [exact I| |reflexivity|cbn; lia|auto].
      apply (hinv_same _ (vars s)); [|exact H]. intros p. rewrite refs_app. cbn. lia. }
    destruct (stream_ok _ _ (length vs) (length t) t I2) as (s1 & q & S1 & S2 & S3); [rewrite app_length; cbn; lia|exact N|].
    rewrite firstn_all in S3.
    assert (U : upd (vs ++ [[]]) (length vs) t = vs ++ [t]).
    { clear. induction vs as [|a l IH]; cbn [upd app length]; [reflexivity|]. rewrite IH. reflexivity. }
    rewrite U in S3. unfold stream in S1. rewrite L.
    destruct (createBufferIter nz _ (length vs) (length t)) as [[s2 q2]| | |]; cbn [obind] in S1 |- *; try discriminate.
    destruct (render nz s2 q2 t) as [s3| | |]; cbn [obind] in S1 |- *; try discriminate.
    rewrite S1. cbn [obind]. exact (finish_ok s1 vs t v S3 V).
  Qed.

  Lemma assign_ok s vs v w : inv s vs -> (v < length vs)%nat -> (w < length vs)%nat -> v <> w ->
    exists s', assign s v w = Ok s' /\ inv s' (upd vs v (value vs w)).
  Proof.
    intros I V W N. pose proof I as (L & H & R & B). unfold assign.
    destruct (addRef_ok (heap s) (vars s) (ptr s w) H) as (h1 & A1 & A2 & A3). { intros p P. exact (refs_nth _ _ _ P). }
    rewrite A1. cbn [obind]. apply Nat.eqb_neq in N. rewrite N.
    assert (H2 : hinv h1 (ptr s v :: upd (vars s) v (ptr s w))).
    { apply (hinv_same _ _ _) with (2 := A2). intros x. cbn [refs].
      pose proof (refs_upd (vars s) v (ptr s w) x ltac:(lia)) as U. unfold ptr in *. lia. }
    destruct (release_ok _ _ _ H2) as (h2 & B1 & B2 & B3). rewrite B1. cbn [obind].
    eexists; split; [reflexivity|]. apply inv_set; [exact I|exact V|exact (inv_bound s vs w I)|exact B2| |].
    - apply (rep_move (heap s)); [|exact (R w W)]. intros p P. rewrite B3; [apply A3|].
      apply (refs_nth _ v). rewrite nth_upd_eq by lia. exact P.
    - intros x p X P. rewrite B3; [apply A3|]. exact (refs_other s v _ x p ltac:(lia) X P).
  Qed.
  Lemma getMT_ok s vs v w : inv s vs -> (v < length vs)%nat -> (w < length vs)%nat ->
    exists s', getMT s v w = Ok s' /\ inv s' (upd vs v (value vs w)).
  Proof.
    intros I V W. pose proof I as (L & H & R & B). unfold getMT, setPtr.
    destruct (addRef_ok (heap s) (vars s) (ptr s w) H) as (h1 & A1 & A2 & A3). { intros p P. exact (refs_nth _ _ _ P). }
    rewrite A1. cbn [obind].
    destruct (addRef_ok h1 _ (ptr s w) A2) as (h2 & B1 & B2 & B3).
    { intros p P. rewrite P. cbn [refs]. rewrite is_same. lia. }
    rewrite B1. cbn [obind].
    assert (H2 : hinv h2 (ptr s v :: ptr s w :: upd (vars s) v (ptr s w))).
    { apply (hinv_same _ _ _) with (2 := B2). intros x. cbn [refs].
      pose proof (refs_upd (vars s) v (ptr s w) x ltac:(lia)) as U. unfold ptr in *. lia. }
    destruct (release_ok _ _ _ H2) as (h3 & C1 & C2 & C3). rewrite C1. cbn [obind].
    destruct (release_ok _ _ _ C2) as (h4 & D1 & D2 & D3). rewrite D1. cbn [obind].
    eexists; split; [reflexivity|]. apply inv_set; [exact I|exact V|exact (inv_bound s vs w I)|exact D2| |].
    - apply (rep_move (heap s)); [|exact (R w W)]. intros p P.
      assert (Q : (1 <= refs (upd (vars s) v (ptr s w)) p)%nat) by (apply (refs_nth _ v); rewrite nth_upd_eq by lia; exact P).
      rewrite D3 by exact Q. rewrite C3 by (cbn [refs]; lia). rewrite B3. apply A3.
    - intros x p X P. pose proof (refs_other s v (ptr s w) x p ltac:(lia) X P) as Q.
      rewrite D3 by exact Q. rewrite C3 by (cbn [refs]; lia). rewrite B3. apply A3.
  Qed.
  Lemma clear_ok s vs v : inv s vs -> (v < length vs)%nat -> exists s', clear s v = Ok s' /\ inv s' (upd vs v []).
  Proof.
    intros I V. pose proof I as (L & H & R & B). unfold clear.
    assert (H2 : hinv (heap s) (ptr s v :: upd (vars s) v None)).
    { apply (hinv_same _ _ _) with (2 := H). intros x. cbn [refs].
      pose proof (refs_upd (vars s) v None x ltac:(lia)) as U. unfold ptr in *. cbn [is] in U. lia. }
    destruct (release_ok _ _ _ H2) as (h2 & B1 & B2 & B3). rewrite B1. cbn [obind].
    eexists; split; [reflexivity|]. apply inv_set; [exact I|exact V|cbn; lia|exact B2|reflexivity|].
    intros x p X P. apply B3. exact (refs_other s v _ x p ltac:(lia) X P).
  Qed.
  Lemma copy_ok s vs v w : inv s vs -> (v < length vs)%nat -> (w < length vs)%nat ->
    exists s', copy s v w = Ok s' /\ inv s' (upd vs v (value vs w)).
  Proof.
    intros I V W. pose proof I as (L & H & R & B). unfold copy.
    destruct (addRef_ok (heap s) (vars s) (ptr s w) H) as (h1 & A1 & A2 & A3). { intros p P. exact (refs_nth _ _ _ P). }
    rewrite A1. cbn [obind].
    assert (I2 : inv (mkState h1 (vars s ++ [ptr s w])) (vs ++ [value vs w])).
    { apply inv_push; [exact I| | |exact (inv_bound s vs w I)|exact A3].
      - apply (hinv_same _ _ _) with (2 := A2). intros x. rewrite refs_app. cbn [refs]. lia.
      - apply (rep_move (heap s)); [auto|exact (R w W)]. }
    destruct (isolate_ok _ _ (length vs) I2) as (s2 & S1 & S2 & _); [rewrite app_length; cbn; lia|].
    rewrite L, S1. cbn [obind]. exact (finish_ok s2 vs (value vs w) v S2 V).
  Qed.

  (** characters stored through the pointer of an isolated string *)
  Lemma poke_ok s vs v i c : inv s vs -> (v < length vs)%nat -> (i < length (value vs v))%nat ->
    (forall p, ptr s v = Some p -> refs (vars s) p = 1%nat) ->
    exists s', poke s v i c = Ok s' /\ inv s' (upd vs v (upd (value vs v) i c)) /\ vars s' = vars s.
  Proof.
    intros I V K U. pose proof I as (L & H & R & B). unfold poke. pose proof (R v V) as RV.
    destruct (ptr s v) as [p|] eqn:P; cbn [rep] in RV; [|rewrite RV in K; cbn in K; lia].
    destruct RV as (cp & RV). destruct (body_get _ _ _ _ RV) as (b & G & <- & T). unfold bget. rewrite G. cbn [obind].
    assert (KL : (i < length (txt b))%nat) by (rewrite T, enc_length; unfold stringLen; destruct nz; lia).
    apply Nat.ltb_lt in KL. rewrite KL. eexists; split; [reflexivity|]. split; [|reflexivity].
    destruct (change_ok (heap s) (vars s) p b (cap b) (upd (txt b) i c) H G) as (C1 & C2 & C3).
    assert (W : upd (vars s) v (Some p) = vars s).
    { unfold ptr in P. clear - P. revert v P. induction (vars s) as [|x l IH]; intros [|v] P; cbn [nth] in P; try discriminate; cbn [upd]; [subst; reflexivity|].
      rewrite IH by exact P. reflexivity. }
    rewrite <- W at 1. apply inv_set; [exact I|exact V|rewrite upd_length; exact (inv_bound s vs v I)|rewrite W; exact C1| |].
    - cbn [rep]. exists (cap b). rewrite C2, T. do 2 f_equal. unfold enc. destruct nz; [|reflexivity].
      clear - K. revert i K. induction (value vs v) as [|x l IH]; intros [|i] K; cbn [length] in K; try lia; cbn [upd app]; [reflexivity|].
      rewrite IH by lia. reflexivity.
    - intros w x N X. apply C3. intros ->. specialize (U p eq_refl).
      pose proof (refs_upd (vars s) v None p ltac:(lia)) as Q. unfold ptr in P. rewrite P, is_same in Q. cbn [is] in Q.
      assert (Y : (1 <= refs (upd (vars s) v None) p)%nat) by exact (refs_other s v None w p ltac:(lia) N X). lia.
  Qed.
  Lemma put_ok s vs v i c : inv s vs -> (v < length vs)%nat -> (i < length (value vs v))%nat ->
    exists s', put s v i c = Ok s' /\ inv s' (upd vs v (upd (value vs v) i c)).
  Proof.
    intros I V K. unfold put. destruct (isolate_ok s vs v I V) as (s1 & S1 & S2 & S3 & _). rewrite S1. cbn [obind].
    destruct (poke_ok s1 vs v i c S2 V K S3) as (s2 & P1 & P2 & _). eauto.
  Qed.
  Lemma upd_upd {A} (l : list A) v x y : upd (upd l v x) v y = upd l v y.
  Proof. revert v. induction l as [|a l IH]; intros [|v]; cbn [upd]; auto. rewrite IH. reflexivity. Qed.
  Lemma pokes_ok t s vs v done rest : inv s (upd vs v (done ++ rest)) -> (v < length vs)%nat -> length t = length rest ->
    (forall p, ptr s v = Some p -> refs (vars s) p = 1%nat) ->
    exists s', pokes s v (length done) t = Ok s' /\ inv s' (upd vs v (done ++ t)).
  Proof.
    revert s done rest. induction t as [|x t IH]; intros s done rest I V E U; destruct rest as [|r rest]; cbn [length] in E; try lia; cbn [pokes].
    - eauto.
    - assert (K : value (upd vs v (done ++ r :: rest)) v = done ++ r :: rest) by (apply nth_upd_eq; exact V).
      destruct (poke_ok s _ v (length done) x I) as (s1 & P1 & P2 & P3).
      { rewrite upd_length. exact V. } { rewrite K, app_length. cbn [length]. lia. } { exact U. }
      rewrite P1. cbn [obind]. rewrite K, upd_upd in P2.
      assert (Q : upd (done ++ r :: rest) (length done) x = (done ++ [x]) ++ rest).
      { rewrite <- app_assoc. cbn [app]. clear. induction done as [|a l IH]; cbn [length app upd]; [reflexivity|]. rewrite IH. reflexivity. }
      rewrite Q in P2.
      destruct (IH s1 (done ++ [x]) rest P2 V ltac:(lia)) as (s2 & R1 & R2).
      { unfold ptr. rewrite P3. exact U. }
      rewrite app_length in R1. cbn [length] in R1. rewrite Nat.add_1_r in R1. rewrite R1.
      exists s2. split; [reflexivity|]. rewrite <- app_assoc in R2. exact R2.
  Qed.

  (** ** Reading *)
  Lemma len_ok s vs v : inv s vs -> (v < length vs)%nat -> len nz s v = Ok (Z.of_nat (length (value vs v))).
  Proof.
    intros I V. pose proof I as (L & H & R & B). unfold len. pose proof (R v V) as RV.
    destruct (ptr s v) as [p|] eqn:P; cbn [rep] in RV; [|rewrite RV; reflexivity].
    destruct RV as (cp & RV). destruct (body_get _ _ _ _ RV) as (b & G & <- & T). unfold bget. rewrite G. cbn [obind].
    rewrite T, enc_length. pose proof (inv_bound s vs v I). unfold originalLen, stringLen. destruct nz; [|reflexivity].
    f_equal. rewrite Z.mod_small by lia. lia.
  Qed.
  Lemma read_ok s vs v : inv s vs -> (v < length vs)%nat -> read nz s v = Ok (value vs v).
  Proof.
    intros I V. unfold read. rewrite (len_ok s vs v I V). cbn [obind]. pose proof I as (L & H & R & B). pose proof (R v V) as RV.
    destruct (Z.eqb_spec (Z.of_nat (length (value vs v))) 0) as [E|E].
    - destruct (value vs v); [reflexivity | cbn [length] in E; lia].
    - destruct (ptr s v) as [p|] eqn:P; cbn [rep] in RV; [|rewrite RV in E; cbn in E; lia].
      destruct RV as (cp & RV). destruct (body_get _ _ _ _ RV) as (b & G & <- & T). unfold bget. rewrite G. cbn [obind].
      rewrite T, enc_length. destruct (Z.ltb_spec (Z.of_nat (stringLen nz (length (value vs v)))) (Z.of_nat (length (value vs v)))) as [X|X].
      { unfold stringLen in X. destruct nz; lia. }
      rewrite Nat2Z.id. f_equal. unfold enc. destruct nz.
      + rewrite firstn_app, firstn_all, Nat.sub_diag. cbn [firstn]. apply app_nil_r.
      + apply firstn_all.
  Qed.
End Nz.

Lemma cscan_ok t : cscan (t ++ [0]) = Ok (up_to_zero t).
Proof.
  induction t as [|x t IH]; cbn [app cscan up_to_zero]; [reflexivity|].
  destruct (x =? 0); [reflexivity|]. rewrite IH. reflexivity.
Qed.
Lemma c_str_ok s vs v : inv true s vs -> (v < length vs)%nat -> c_str true s v = Ok (up_to_zero (value vs v)).
Proof.
  intros I V. unfold c_str. rewrite (len_ok true s vs v I V). cbn [obind]. pose proof I as (L & H & R & B). pose proof (R v V) as RV.
  destruct (Z.eqb_spec (Z.of_nat (length (value vs v))) 0) as [E|E].
  - destruct (value vs v); [reflexivity | cbn [length] in E; lia].
  - destruct (ptr s v) as [p|] eqn:P; cbn [rep] in RV; [|rewrite RV in E; cbn in E; lia].
    destruct RV as (cp & RV). destruct (body_get _ _ _ _ RV) as (b & G & <- & T). unfold bget. rewrite G. cbn [obind].
    rewrite T. apply cscan_ok.
Qed.

(** ** createBuffer *)
Lemma isolate_shared h vs l v p c t : hinv h (l ++ vs) -> nth v vs None = Some p -> (2 <= refs (l ++ vs) p)%nat ->
  body h p = Some (c, t) ->
  exists h' r, isolate (mkState h vs) v = Ok (mkState h' (upd vs v (Some r))) /\
    hinv h' (l ++ upd vs v (Some r)) /\ body h' r = Some (length t, t) /\ refs (l ++ vs) r = 0%nat /\
    (forall x, x <> r -> (1 <= refs (l ++ upd vs v (Some r)) x)%nat -> body h' x = body h x).
Proof.
  intros H P M E. assert (V : (v < length vs)%nat).
  { destruct (Nat.lt_ge_cases v (length vs)) as [A|A]; [exact A|]. rewrite nth_overflow in P by lia. discriminate. }
  unfold isolate, ptr. cbn [vars heap]. rewrite P.
  destruct (hinv_live _ _ p H ltac:(lia)) as (b & G & C). unfold bget. rewrite G. cbn [obind].
  unfold body in E. rewrite G in E. injection E as EC ET.
  destruct (Nat.ltb_spec 1 (cnt b)) as [_|X]; [|lia].
  pose proof (alloc_ok h (l ++ vs) (length (txt b)) (txt b) H) as A.
  destruct (balloc h (length (txt b)) (txt b)) as [h1 q]. destruct A as (h2 & A1 & A2 & A3 & A4 & A5). rewrite A1. cbn [obind].
  unfold takeTemp, setPtr, ptr. cbn [vars].
  destruct (addRef_ok h2 _ (Some q) A2) as (h3 & B1 & B2 & B3).
  { intros x X. injection X as <-. cbn [refs]. rewrite is_same. lia. }
  rewrite B1. cbn [obind]. rewrite P.
  assert (H4 : hinv h3 (Some p :: Some q :: l ++ upd vs v (Some q))).
  { apply (hinv_same _ _ _) with (2 := B2). intros x. cbn [refs]. rewrite !refs_app.
    pose proof (refs_upd vs v (Some q) x V) as U. rewrite P in U. lia. }
  destruct (release_ok _ _ _ H4) as (h4 & C1 & C2 & C3). rewrite C1. cbn [obind].
  destruct (release_ok _ _ _ C2) as (h5 & D1 & D2 & D3). rewrite D1. cbn [obind].
  exists h5, q. split; [reflexivity|]. split; [exact D2|].
  assert (Q : (1 <= refs (l ++ upd vs v (Some q)) q)%nat).
  { rewrite refs_app. pose proof (refs_nth (upd vs v (Some q)) v q (nth_upd_eq _ _ _ _ V)). lia. }
  split; [|split; [exact A4|]].
  - rewrite D3 by exact Q. rewrite C3 by (cbn [refs]; lia). rewrite B3, A3, ET. reflexivity.
  - intros x X Y. rewrite D3 by exact Y. rewrite C3 by (cbn [refs]; lia). rewrite B3. apply A5. exact X.
Qed.
Lemma endIter_last nz h vs l q c t : hinv h (Some q :: l) -> body h q = Some (c, t) ->
  exists h', endIter nz (mkState h vs) q = Ok (mkState h' vs) /\ hinv h' l /\
    (forall p, p <> q -> (1 <= refs l p)%nat -> body h' p = body h p).
Proof.
  intros H E. unfold endIter. destruct nz.
  - destruct (write_ok h vs _ q _ _ 0 H E) as (h1 & W1 & W2 & W3 & W4). rewrite W1. cbn [obind heap vars].
    destruct (release_ok _ _ _ W2) as (h2 & R1 & R2 & R3). rewrite R1. cbn [obind].
    exists h2. split; [reflexivity|]. split; [exact R2|]. intros p P Q. rewrite R3 by exact Q. auto.
  - cbn [obind heap vars]. destruct (release_ok _ _ _ H) as (h2 & R1 & R2 & R3). rewrite R1. cbn [obind].
    exists h2. split; [reflexivity|]. split; [exact R2|]. intros p P Q. auto.
Qed.

Lemma create_raw nz s vs v n t : inv nz s vs -> (v < length vs)%nat ->
  exists h r, create nz s v n t = pokes (mkState h (upd (vars s) v (Some r))) v 0 t /\
    hinv h (upd (vars s) v (Some r)) /\ body h r = Some (n, repeat 0 n) /\ refs (upd (vars s) v (Some r)) r = 1%nat /\
    (forall w p, w <> v -> ptr s w = Some p -> body h p = body (heap s) p).
Proof.
  intros I V. pose proof I as (L & H & R & B). unfold create.
  destruct (createBufferIter_ok nz s vs v n I V) as (h & q & C1 & C2 & C3 & C4 & C5). rewrite C1. cbn [obind].
  unfold init. destruct (body_get _ _ _ _ C3) as (b & G & CB & TB). unfold bget. cbn [heap vars]. rewrite G. cbn [obind].
  unfold badd. destruct (change_ok h _ q b (cap b) (txt b ++ firstn (cap b - length (txt b)) (repeat 0 n)) C2 G) as (D1 & D2 & D3).
  rewrite CB, TB in *. cbn [length app] in D1, D2, D3 |- *. rewrite Nat.sub_0_r in *.
  rewrite firstn_all2 in * by (rewrite repeat_length; unfold stringLen; destruct nz; lia).
  set (h1 := upd h q _) in *.
  assert (VL : (v < length (vars s))%nat) by lia.
  assert (VQ : nth v (upd (vars s) v (Some q)) None = Some q) by (apply nth_upd_eq; exact VL).
  assert (M : (2 <= refs ([Some q] ++ upd (vars s) v (Some q)) q)%nat).
  { rewrite refs_app. cbn [refs]. rewrite is_same. pose proof (refs_nth _ _ _ VQ). lia. }
  destruct (isolate_shared h1 _ [Some q] v q _ _ D1 VQ M D2) as (h2 & r & E1 & E2 & E3 & E4 & E5).
  rewrite E1. cbn [obind]. rewrite upd_upd in *. rewrite repeat_length in E3.
  assert (RQ : r <> q) by (intros ->; lia).
  assert (Q2 : (1 <= refs ([Some q] ++ upd (vars s) v (Some r)) q)%nat) by (rewrite refs_app; cbn [refs]; rewrite is_same; lia).
  assert (BQ : body h2 q = Some (stringLen nz n, repeat 0 n)) by (rewrite E5; auto).
  destruct (endIter_last nz h2 (upd (vars s) v (Some r)) _ q _ _ E2 BQ) as (h3 & F1 & F2 & F3). rewrite F1. cbn [obind].
  exists h3, r. split; [reflexivity|]. split; [exact F2|].
  assert (RR : refs (upd (vars s) v (Some r)) r = 1%nat).
  { pose proof (refs_upd (vars s) v (Some r) r VL) as U. rewrite is_same in U.
    pose proof (refs_upd (vars s) v (Some q) r VL) as U2. rewrite (is_other r q) in U2 by exact RQ.
    rewrite refs_app in E4. cbn [refs] in E4. rewrite (is_other r q) in E4 by exact RQ.
    pose proof (is_le r (nth v (vars s) None)).
    assert (X : (1 <= refs (upd (vars s) v (Some r)) r)%nat) by (apply (refs_nth _ v); apply nth_upd_eq; exact VL). lia. }
  split; [|split; [exact RR|]].
  - rewrite F3; auto. lia.
  - intros w p W P. pose proof (refs_other s v (Some r) w p VL W P) as X.
    pose proof (refs_other s v (Some q) w p VL W P) as X2.
    assert (PQ : p <> q) by (intros ->; pose proof (refs_nth _ _ _ P); lia).
    assert (PR : p <> r). { intros ->. rewrite refs_app in E4. lia. }
    rewrite F3, E5, D3, C5; auto. rewrite refs_app. lia.
Qed.
Lemma create_ok s vs v n t : inv false s vs -> (v < length vs)%nat -> length t = n -> Z.of_nat n < 2 ^ 63 ->
  exists s', create false s v n t = Ok s' /\ inv false s' (upd vs v t).
Proof.
  intros I V E N. destruct (create_raw false s vs v n t I V) as (h & r & C1 & C2 & C3 & C4 & C5). rewrite C1.
  pose proof I as (L & _).
  apply (pokes_ok false t _ vs v [] (repeat 0 n)); [|exact V|rewrite repeat_length; exact E|].
  - cbn [app]. apply inv_set; [exact I|exact V|rewrite repeat_length; exact N|exact C2| |exact C5].
    cbn [rep]. exists n. exact C3.
  - intros p P. unfold ptr in P. cbn [vars] in *. rewrite nth_upd_eq in P by lia. injection P as <-. exact C4.
Qed.

(** ** One operation, all histories *)
Lemma step_ok nz o s vs : inv nz s vs -> op_ok o vs -> plain_op nz o ->
  exists s', step nz o s = Ok (s', snd (spec_step o vs)) /\ inv nz s' (fst (spec_step o vs)).
Proof.
  intros I K P. destruct o; cbn [op_ok plain_op step spec_step fst snd] in *.
  - destruct K as (V & N). destruct (load_ok nz s vs v t I V N) as (s1 & -> & I1). cbn [obind]. eauto.
  - destruct K as (V & W). destruct (assign_ok nz s vs v w I V W P) as (s1 & -> & I1). cbn [obind]. eauto.
  - destruct (clear_ok nz s vs v I K) as (s1 & -> & I1). cbn [obind]. eauto.
  - destruct (isolate_ok nz s vs v I K) as (s1 & -> & I1 & _). cbn [obind]. eauto.
  - destruct K as (V & W). destruct (copy_ok nz s vs v w I V W) as (s1 & -> & I1). cbn [obind]. eauto.
  - destruct K as (V & W). destruct (getMT_ok nz s vs v w I V W) as (s1 & -> & I1). cbn [obind]. eauto.
  - destruct K as (V & W). destruct (put_ok nz s vs v i c I V W) as (s1 & -> & I1). cbn [obind]. eauto.
  - destruct K as (V & N). destruct (stream_ok nz s vs v n t I V N) as (s1 & q & -> & _ & I1). cbn [obind]. eauto.
  - destruct K as (V & E & N). subst nz. destruct (create_ok s vs v n t I V E N) as (s1 & -> & I1). cbn [obind]. eauto.
  - rewrite (read_ok nz s vs v I K). cbn [obind]. eauto.
  - subst nz. rewrite (c_str_ok s vs v I K). cbn [obind]. eauto.
Qed.
Lemma run_ok nz os : forall s vs, inv nz s vs -> ops_ok os vs -> Forall (plain_op nz) os ->
  exists s', run nz os s = Ok (s', snd (spec_run os vs)) /\ inv nz s' (fst (spec_run os vs)).
Proof.
  induction os as [|o os IH]; intros s vs I K P; cbn [run spec_run].
  - eauto.
  - cbn [ops_ok] in K. destruct K as (K1 & K2). apply Forall_cons_iff in P as (P1 & P2).
    destruct (step_ok nz o s vs I K1 P1) as (s1 & S1 & I1). rewrite S1. cbn [obind].
    destruct (spec_step o vs) as [vs1 a]. cbn [fst snd] in *.
    destruct (IH s1 vs1 I1 K2 P2) as (s2 & S2 & I2). rewrite S2. cbn [obind].
    destruct (spec_run os vs1) as [vs2 l]. cbn [fst snd] in *. eauto.
Qed.

(** the live buffers are those that some variable points to *)
Lemma no_leak nz s vs p : inv nz s vs -> nth p (heap s) None <> None -> exists v, ptr s v = Some p.
Proof.
  intros (_ & H & _) N. specialize (H p). destruct (nth p (heap s) None) as [b|]; [|contradiction].
  destruct H as (C & G). rewrite C in G. clear - G. unfold ptr. induction (vars s) as [|o l IH]; cbn [refs] in G; [lia|].
  destruct o as [q|]; cbn [is] in G.
  - destruct (Nat.eqb_spec p q) as [->|N]; [exists 0%nat; reflexivity|]. destruct (IH ltac:(lia)) as (v & E). exists (S v). exact E.
  - destruct (IH ltac:(lia)) as (v & E). exists (S v). exact E.
Qed.

(** ** Comparison *)
Lemma strCmpCS_order a : forall b, strCmpCS a b = text_order a b.
Proof.
  induction a as [|x a IH]; intros [|y b]; try reflexivity.
  specialize (IH b). unfold strCmpCS in *. cbn [length text_order].
  assert (LT : (S (length a) <? S (length b))%nat = (length a <? length b)%nat) by reflexivity.
  assert (GT : (S (length b) <? S (length a))%nat = (length b <? length a)%nat) by reflexivity.
  rewrite LT, GT.
  assert (E : (if (length a <? length b)%nat then S (length a) else S (length b)) = S (if (length a <? length b)%nat then length a else length b))
    by (destruct (length a <? length b)%nat; reflexivity).
  rewrite E. cbn [cmpLoop]. destruct (Z.compare_spec x y) as [->|L|L].
  - rewrite Z.ltb_irrefl. exact IH.
  - destruct (Z.ltb_spec y x); [lia|]. destruct (Z.ltb_spec x y); [reflexivity|lia].
  - destruct (Z.ltb_spec y x); [reflexivity|lia].
Qed.
Lemma strCmpCI_order a : forall b, Forall (fun c => c <> 0) a -> strCmpCI a b = text_order (map lower a) (map lower b).
Proof.
  induction a as [|x a IH]; intros [|y b] N; try reflexivity.
  apply Forall_cons_iff in N as (X & N). specialize (IH b N). unfold strCmpCI in *. cbn [length map text_order Nat.min strncasecmp].
  destruct (Z.compare_spec (lower x) (lower y)) as [E|E|E].
  - apply Z.eqb_eq in E. rewrite E. cbn [negb]. apply Z.eqb_neq in X. rewrite X. cbn [Nat.eqb]. exact IH.
  - destruct (Z.eqb_spec (lower x) (lower y)) as [Q|_]; [lia|]. cbn [negb].
    destruct (Z.eqb_spec (lower x - lower y) 0); [lia|]. destruct (Z.ltb_spec (lower x - lower y) 0); [reflexivity|lia].
  - destruct (Z.eqb_spec (lower x) (lower y)) as [Q|_]; [lia|]. cbn [negb].
    destruct (Z.eqb_spec (lower x - lower y) 0); [lia|]. destruct (Z.ltb_spec (lower x - lower y) 0); [lia|reflexivity].
Qed.
Lemma makeCStr_literal t : makeCStr (t ++ [0]) = t.
Proof. unfold makeCStr. rewrite last_last, removelast_last. reflexivity. Qed.
Lemma strncasecmp_zero p : forall a b, (length a = length b)%nat ->
  strncasecmp (length (p ++ 0 :: a)) (p ++ 0 :: a) (p ++ 0 :: b) = 0.
Proof.
  induction p as [|x p IH]; intros a b E; cbn [app length strncasecmp].
  - reflexivity.
  - rewrite Z.eqb_refl. cbn [negb]. destruct (x =? 0); [reflexivity|]. apply IH. exact E.
Qed.
