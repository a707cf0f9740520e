(** Lemmas about the HTTP client. *)
From Coq Require Import ZArith String Lia ZifyBool.
From Verif Require Import Common IntText_Spec IntText_Model IntText_Proof Str_Spec Str_Props Http_Spec Http_Model.
Import ListNotations.
Local Open Scope Z_scope.

(** ** the header map *)
Lemma text_eqb_spec a b : reflect (a = b) (text_eqb a b).
Proof.
  unfold text_eqb. pose proof (proj1 (text_order_total a b b)) as E.
  destruct (text_order a b); constructor; try (apply E; reflexivity); intros Q; apply E in Q; discriminate.
Qed.
Lemma text_eqb_refl a : text_eqb a a = true.
Proof. destruct (text_eqb_spec a a); congruence. Qed.
Lemma order_eq a b : text_order a b = Eq -> a = b.
Proof. apply (proj1 (text_order_total a b b)). Qed.
Lemma order_gt a b : text_order a b = Gt -> text_order b a = Lt.
Proof. intros H. rewrite (proj1 (proj2 (text_order_total a b b))), H. reflexivity. Qed.
Lemma order_trans a b c : text_order a b = Lt -> text_order b c = Lt -> text_order a c = Lt.
Proof. apply (proj2 (proj2 (text_order_total a b c))). Qed.
Lemma order_irrefl a : text_order a a <> Lt.
Proof. rewrite (proj2 (proj1 (text_order_total a a a)) eq_refl). discriminate. Qed.

Lemma hreplace_keys k v m (P : list Z -> Prop) : P k -> Forall (fun e : list Z * list Z => P (fst e)) m -> Forall (fun e => P (fst e)) (hreplace k v m).
Proof.
  intros K. induction m as [|(k', v') m IH]; cbn [hreplace]; intros F.
  - constructor; auto.
  - apply Forall_cons_iff in F as (A & F). destruct (text_order k k'); repeat constructor; auto.
Qed.
Lemma hreplace_order k v m : in_order m -> in_order (hreplace k v m).
Proof.
  induction m as [|(k', v') m IH]; cbn [hreplace in_order]; intros O.
  - split; constructor.
  - destruct O as (A & O). destruct (text_order k k') eqn:E; cbn [in_order].
    + auto.
    + split; [|auto]. constructor; [exact E|]. eapply Forall_impl; [|exact A]. cbn beta. intros e L. exact (order_trans _ _ _ E L).
    + split; [|auto]. apply (hreplace_keys k v m (fun x => text_order k' x = Lt)); [apply order_gt, E|exact A].
Qed.
Lemma hreplace_find k v m q : hfind q (hreplace k v m) = if text_eqb q k then Some v else hfind q m.
Proof.
  induction m as [|(k', v') m IH]; cbn [hreplace hfind].
  - reflexivity.
  - destruct (text_order k k') eqn:E; cbn [hfind].
    + apply order_eq in E as ->. destruct (text_eqb q k'); reflexivity.
    + reflexivity.
    + rewrite IH. destruct (text_eqb_spec q k'), (text_eqb_spec q k); try reflexivity.
      subst. apply order_gt in E. exfalso. exact (order_irrefl _ E).
Qed.
Lemma hinsert_find k v m q : in_order m ->
  hfind q (hinsert k v m) = match hfind q m with Some x => Some x | None => if text_eqb q k then Some v else None end.
Proof.
  assert (N : forall l k', text_order k k' = Lt -> Forall (fun e : list Z * list Z => text_order k' (fst e) = Lt) l -> hfind k l = None).
  { induction l as [|(x, y) l IHl]; intros k' L F; [reflexivity|]. apply Forall_cons_iff in F as (A & F). cbn [hfind fst] in *.
    destruct (text_eqb_spec k x) as [<-|_]; [exfalso; exact (order_irrefl _ (order_trans _ _ _ L A))|]. exact (IHl k' L F). }
  induction m as [|(k', v') m IH]; cbn [hinsert hfind in_order].
  - reflexivity.
  - intros (A & O). specialize (IH O). destruct (text_order k k') eqn:E; cbn [hfind].
    + apply order_eq in E as ->. destruct (text_eqb q k') eqn:Q; [reflexivity|]. destruct (hfind q m); reflexivity.
    + destruct (text_eqb_spec q k) as [->|Q].
      * destruct (text_eqb_spec k k') as [<-|_]; [exfalso; exact (order_irrefl _ E)|]. rewrite (N m k' E A). reflexivity.
      * destruct (text_eqb q k'); [reflexivity|]. destruct (hfind q m); reflexivity.
    + rewrite IH. destruct (text_eqb q k'); reflexivity.
Qed.
Lemma hinsert_keys k v m (P : list Z -> Prop) : P k -> Forall (fun e : list Z * list Z => P (fst e)) m -> Forall (fun e => P (fst e)) (hinsert k v m).
Proof.
  intros K. induction m as [|(k', v') m IH]; cbn [hinsert]; intros F.
  - constructor; auto.
  - pose proof F as F'. apply Forall_cons_iff in F as (A & F). destruct (text_order k k'); auto; constructor; auto.
Qed.
Lemma hinsert_order k v m : in_order m -> in_order (hinsert k v m).
Proof.
  induction m as [|(k', v') m IH]; cbn [hinsert in_order]; intros O.
  - split; constructor.
  - destruct O as (A & O). destruct (text_order k k') eqn:E; cbn [in_order].
    + auto.
    + split; [|auto]. constructor; [exact E|]. eapply Forall_impl; [|exact A]. cbn beta. intros e L. exact (order_trans _ _ _ E L).
    + split; [|auto]. apply (hinsert_keys k v m (fun x => text_order k' x = Lt)); [apply order_gt, E|exact A].
Qed.
Lemma herase_keys k m (P : list Z -> Prop) : Forall (fun e : list Z * list Z => P (fst e)) m -> Forall (fun e => P (fst e)) (herase k m).
Proof.
  unfold herase. induction m as [|e m IH]; intros F; [constructor|]. apply Forall_cons_iff in F as (A & F).
  cbn [filter]. destruct (negb _); [constructor|]; auto.
Qed.
Lemma herase_order k m : in_order m -> in_order (herase k m).
Proof.
  unfold herase. induction m as [|(k', v') m IH]; intros O; [exact I|]. destruct O as (A & O). cbn [filter].
  destruct (negb _); [|auto]. split; [apply (herase_keys k m (fun x => text_order k' x = Lt)), A|auto].
Qed.
Lemma herase_find k m q : hfind q (herase k m) = if text_eqb q k then None else hfind q m.
Proof.
  unfold herase. induction m as [|(k', v') m IH]; cbn [filter hfind fst].
  - destruct (text_eqb q k); reflexivity.
  - destruct (text_eqb_spec k' k) as [->|N]; cbn [negb].
    + rewrite IH. destruct (text_eqb q k); reflexivity.
    + cbn [hfind]. rewrite IH. destruct (text_eqb_spec q k') as [E|_]; [|destruct (text_eqb q k); reflexivity].
      destruct (text_eqb_spec q k) as [E'|_]; [|reflexivity]. exfalso. apply N. congruence.
Qed.
Lemma first_value_app k a b : first_value k (a ++ b) = match first_value k a with Some v => Some v | None => first_value k b end.
Proof. induction a as [|(x, y) a IH]; [reflexivity|]. cbn [app first_value]. destruct (text_eqb k x); [reflexivity|exact IH]. Qed.
Lemma last_value_snoc k hs x v : last_value k (hs ++ [(x, v)]) = if text_eqb k x then Some v else last_value k hs.
Proof. unfold last_value. rewrite rev_app_distr. reflexivity. Qed.

(** ** requests *)
Lemma addHeaders_eq hs : forall r, exists m, addHeaders hs r = mkReq (method r) (path r) m (sent r) (chunk r) (maxChunk r) (out r) /\
  (in_order (hdrs r) -> in_order m) /\
  forall k, hfind k m = match last_value k hs with Some v => Some v | None => hfind k (hdrs r) end.
Proof.
  induction hs as [|(x, v) hs IH]; intros r; cbn [addHeaders].
  - exists (hdrs r). destruct r; repeat split; auto.
  - destruct (IH (addHeader x v r)) as (m & E & O & F). exists m. split; [exact E|]. split.
    + intros H. apply O. apply hreplace_order, H.
    + intros k. rewrite F. cbn [hdrs addHeader]. rewrite hreplace_find. unfold last_value. cbn [rev].
      rewrite first_value_app. cbn [first_value]. destruct (first_value k (rev hs)); [reflexivity|]. destruct (text_eqb k x); reflexivity.
Qed.
Lemma sendFields_eq m : forall r, sendFields m r = sendString (concat (map field m)) r.
Proof.
  induction m as [|(k, v) m IH]; intros r; cbn [sendFields map concat].
  - unfold sendString. rewrite app_nil_r. destruct r; reflexivity.
  - rewrite IH. unfold sendString, field. cbn [fst snd method path hdrs sent chunk maxChunk out]. repeat rewrite <- app_assoc. reflexivity.
Qed.
Definition bodyMap (m : hmap) : hmap := herase (tx "Content-Length" ++ [9]) (hreplace (tx "Transfer-Encoding") (tx "chunked") m).
Lemma sendHeaders_eq (body : bool) (r : req) : let m := if body then bodyMap (hdrs r) else hdrs r in
  sendHeaders body r = mkReq (method r) (path r) m true (chunk r) (maxChunk r) (out r ++ request_head (method r) (path r) m).
Proof.
  destruct r as [m p h b c x o].
  destruct body; cbv beta iota zeta delta [sendHeaders addHeader bodyMap sendString setSent method path hdrs sent chunk maxChunk out];
  rewrite sendFields_eq; cbv beta iota zeta delta [sendString method path hdrs sent chunk maxChunk out];
  unfold request_head; f_equal; repeat rewrite <- app_assoc; reflexivity.
Qed.
Lemma sendChunk_eq r : Z.of_nat (length (chunk r)) < 2 ^ 64 -> exists n,
  sendChunk r = Ok (sendString (n ++ crlf ++ chunk r ++ crlf) r) /\ numeral 16 n (Z.of_nat (length (chunk r))).
Proof.
  intros L. destruct (formatU_ok 16 ltac:(lia) false (Z.of_nat (length (chunk r)))) as (n & E & N & _); [lia|].
  exists n. split; [|exact N]. unfold sendChunk. rewrite E. cbn [obind]. unfold sendString. cbn [method path hdrs sent chunk maxChunk out].
  repeat rewrite <- app_assoc. reflexivity.
Qed.
(** [t] is the start of the coding of everything that begins with [b] *)
Definition cpre (b t : list Z) : Prop := forall b' t', chunked any_size b' t' -> chunked any_size (b ++ b') (t ++ t').
Lemma cpre_more b t size data : cpre b t -> data <> [] -> numeral 16 size (Z.of_nat (length data)) -> Z.of_nat (length data) < 2 ^ 64 ->
  cpre (b ++ data) (t ++ size ++ crlf ++ data ++ crlf).
Proof.
  intros C N S L b' t' H. rewrite <- !app_assoc. apply C.
  exact (chunked_more any_size size [] data b' t' N S (conj I (Forall_nil _)) I L H).
Qed.
(** the state between beginBody and the end *)
Definition inBody (m p : list Z) (h : hmap) (o b : list Z) (r : req) : Prop :=
  method r = m /\ path r = p /\ hdrs r = h /\ sent r = true /\
  exists b1 t, b = b1 ++ chunk r /\ cpre b1 t /\ out r = o ++ t.
Lemma flush_ok m p h o b r : inBody m p h o b r -> Z.of_nat (length b) < 2 ^ 64 ->
  exists r', flush r = Ok r' /\ inBody m p h o b r' /\ chunk r' = [] /\ maxChunk r' = maxChunk r.
Proof.
  intros (M & P & H & S & b1 & t & B & C & O) L. unfold flush. rewrite S.
  destruct (chunk r) as [|c cs] eqn:E.
  - exists r. repeat split; auto. exists b1, t. rewrite E. auto.
  - assert (L' : Z.of_nat (length (chunk r)) < 2 ^ 64) by (rewrite E; rewrite B, app_length in L; lia).
    destruct (sendChunk_eq r L') as (n & -> & N). cbn [obind]. eexists. split; [reflexivity|].
    unfold inBody, setChunk, sendString. cbn [method path hdrs sent chunk maxChunk out]. repeat split; auto.
    exists (b1 ++ c :: cs), (t ++ n ++ crlf ++ chunk r ++ crlf). split; [rewrite app_nil_r; exact B|]. split.
    + rewrite <- E. apply cpre_more; auto. rewrite E. discriminate.
    + rewrite O. repeat rewrite <- app_assoc. reflexivity.
Qed.
Lemma bstep_ok m p h o b r op : inBody m p h o b r -> Z.of_nat (length (b ++ written [op])) < 2 ^ 64 ->
  exists r', bstep op r = Ok r' /\ inBody m p h o (b ++ written [op]) r'.
Proof.
  intros I L. destruct op as [c| |n]; cbn [bstep written flat_map app] in *.
  - unfold write. cbn [app flat_map] in L.
    assert (I' : inBody m p h o (b ++ [c]) (setChunk (chunk r ++ [c]) r)).
    { destruct I as (M & P & H & S & b1 & t & B & C & O). repeat split; auto. exists b1, t. cbn [chunk setChunk out]. subst b. rewrite app_assoc. auto. }
    destruct (_ =? _).
    + destruct (flush_ok _ _ _ _ _ _ I' L) as (r' & E & J & _). exists r'. auto.
    + eexists. split; [reflexivity|]. exact I'.
  - rewrite app_nil_r in *. destruct (flush_ok _ _ _ _ _ _ I L) as (r' & E & J & _). exists r'. auto.
  - rewrite app_nil_r in *. eexists. split; [reflexivity|]. exact I.
Qed.
Lemma bsteps_ok m p h o os : forall b r, inBody m p h o b r -> Z.of_nat (length (b ++ written os)) < 2 ^ 64 ->
  exists r', bsteps os r = Ok r' /\ inBody m p h o (b ++ written os) r'.
Proof.
  induction os as [|op os IH]; intros b r I L; cbn [bsteps].
  - exists r. cbn [written flat_map]. rewrite app_nil_r. auto.
  - assert (W : written (op :: os) = written [op] ++ written os) by (unfold written; cbn [flat_map]; rewrite app_nil_r; reflexivity).
    rewrite W, app_assoc in *. destruct (bstep_ok m p h o b r op I) as (r1 & -> & J); [rewrite app_length in L; lia|].
    cbn [obind]. exact (IH _ _ J L).
Qed.
Lemma reset_ok m p h o b r : inBody m p h o b r -> Z.of_nat (length b) < 2 ^ 64 -> exists n t,
  reset r = Ok (mkReq [] [] [] false [] n (o ++ t)) /\ chunked any_size b t.
Proof.
  intros I L. pose proof I as (_ & _ & _ & S & _). unfold reset. rewrite S.
  destruct (flush_ok _ _ _ _ _ _ I L) as (r' & -> & J & C & X). cbn [obind].
  destruct (sendChunk_eq r') as (n & -> & N); [rewrite C; cbn; lia|]. cbn [obind]. rewrite C in *. cbn [length Z.of_nat app] in *.
  destruct J as (_ & _ & _ & _ & b1 & t & B & P & O). rewrite C, app_nil_r in B. subst b1.
  exists (maxChunk r'), (t ++ n ++ crlf ++ crlf). cbn [sendString chunk maxChunk out]. rewrite C, O, <- app_assoc. split; [reflexivity|].
  rewrite <- (app_nil_r b). apply P. exact (chunked_last any_size n [] N (conj Logic.I (Forall_nil _)) Logic.I).
Qed.

(** ** lines *)
Lemma lineLoop_line t : forall prev line rest, prev <> 13 -> no_cr t -> lineLoop prev line (t ++ crlf ++ rest) = (line ++ t, rest, false).
Proof.
  induction t as [|c t IH]; intros prev line rest P N; cbn [app lineLoop crlf].
  - destruct (Z.eqb_spec prev 13); [contradiction|]. cbn [andb lineLoop Z.eqb Pos.eqb].
    rewrite <- app_assoc. cbn [app]. rewrite app_length. cbn [length]. replace (length line + 2 - 2)%nat with (length line + 0)%nat by lia.
    rewrite firstn_app_2. cbn [firstn]. reflexivity.
  - apply Forall_cons_iff in N as (A & N). destruct (Z.eqb_spec prev 13); [contradiction|]. cbn [andb].
    change (t ++ 13 :: 10 :: rest) with (t ++ crlf ++ rest). rewrite IH by assumption. rewrite <- app_assoc. reflexivity.
Qed.
Lemma lineLoop_cut t : forall prev line, prev <> 13 -> no_cr t -> lineLoop prev line t = ([], [], true).
Proof.
  induction t as [|c t IH]; intros prev line P N; cbn [lineLoop]; [reflexivity|].
  apply Forall_cons_iff in N as (A & N). destruct (Z.eqb_spec prev 13); [contradiction|]. cbn [andb]. apply IH; assumption.
Qed.
Lemma readLine_line s t rest : eof s = false -> inp s = t ++ crlf ++ rest -> no_cr t -> readLine s = (t, setInp rest false s).
Proof. intros E I N. unfold readLine. rewrite E, I, lineLoop_line; [reflexivity|lia|exact N]. Qed.
Lemma readLine_cut s t : eof s = false -> inp s = t -> no_cr t -> readLine s = ([], setInp [] true s).
Proof. intros E I N. unfold readLine. rewrite E, I, lineLoop_cut; [reflexivity|lia|exact N]. Qed.
Lemma readLine_eof s : eof s = true -> readLine s = ([], s).
Proof. intros E. unfold readLine. rewrite E. reflexivity. Qed.
Lemma setInp_id i s : inp s = i -> eof s = false -> setInp i false s = s.
Proof. destruct s; cbn. intros -> ->. reflexivity. Qed.
Lemma setInp_twice i e i' e' s : setInp i e (setInp i' e' s) = setInp i e s.
Proof. destruct s; reflexivity. Qed.
Lemma no_cr_app a b : no_cr a -> no_cr b -> no_cr (a ++ b).
Proof. intros A B. apply Forall_app. auto. Qed.

Lemma statusLine_ok k : forall fuel s l rest, (k < fuel)%nat -> eof s = false -> l <> [] -> no_cr l ->
  inp s = concat (repeat crlf k) ++ l ++ crlf ++ rest -> statusLine fuel s = Ok (l, setInp rest false s).
Proof.
  induction k as [|k IH]; intros [|fuel] s l rest F E L N I; try lia; cbn [statusLine].
  - rewrite (readLine_line s l rest E I N). destruct l; [contradiction|reflexivity].
  - cbn [repeat concat] in I. rewrite <- app_assoc in I. rewrite (readLine_line s [] _ E I (Forall_nil _)).
    rewrite (IH fuel _ l rest) by (try assumption; try reflexivity; lia). rewrite setInp_twice. reflexivity.
Qed.
Lemma statusLine_eof fuel : forall s, eof s = true -> statusLine fuel s = NoFuel.
Proof. induction fuel as [|f IH]; intros s E; [reflexivity|]. cbn [statusLine]. rewrite (readLine_eof s E). auto. Qed.
Lemma statusLine_cut k : forall fuel s t, eof s = false -> no_cr t -> inp s = concat (repeat crlf k) ++ t -> statusLine fuel s = NoFuel.
Proof.
  induction k as [|k IH]; intros [|fuel] s t E N I; try reflexivity; cbn [statusLine].
  - rewrite (readLine_cut s t E I N). apply statusLine_eof. reflexivity.
  - cbn [repeat concat] in I. rewrite <- app_assoc in I. rewrite (readLine_line s [] _ E I (Forall_nil _)).
    eapply IH; [reflexivity|exact N|reflexivity].
Qed.
Lemma chunkLine_status fuel : forall s, chunkLine fuel s = statusLine fuel s.
Proof. induction fuel as [|f IH]; intros s; [reflexivity|]. cbn [chunkLine statusLine]. destruct (readLine s) as [[|] s']; auto. Qed.

Lemma findc_app c a b : Forall (fun x => x <> c) a -> findc c (a ++ c :: b) = Some (length a).
Proof.
  induction a as [|x a IH]; intros F; cbn [app findc length].
  - rewrite Z.eqb_refl. reflexivity.
  - apply Forall_cons_iff in F as (A & F). destruct (Z.eqb_spec x c); [contradiction|]. rewrite (IH F). reflexivity.
Qed.
Lemma findc_none c a : Forall (fun x => x <> c) a -> findc c a = None.
Proof.
  induction a as [|x a IH]; intros F; cbn [findc]; [reflexivity|].
  apply Forall_cons_iff in F as (A & F). destruct (Z.eqb_spec x c); [contradiction|]. rewrite (IH F). reflexivity.
Qed.
Lemma firstn_len {A} (a b : list A) : firstn (length a) (a ++ b) = a.
Proof. replace (length a) with (length a + 0)%nat by lia. rewrite firstn_app_2. cbn [firstn]. apply app_nil_r. Qed.
Lemma skipn_len {A} (a : list A) x b : skipn (length a + 1) (a ++ x :: b) = b.
Proof. induction a as [|y a IH]; [reflexivity|]. cbn [length Nat.add app skipn]. exact IH. Qed.

(** ** numbers *)
Definition fvalues (b n : Z) (t : list Z) : Z :=
  fold_left (fun n c => n * b + match digitOf 36 c with Some d => d | None => 0 end) t n.
Lemma digit_digitOf c d : digit c d -> digitOf 36 c = Some d.
Proof. intros []; unfold digitOf; repeat match goal with |- context [if ?b then _ else _] => let E := fresh in destruct b eqn:E end; f_equal; lia. Qed.
Lemma digit_digitOf_b b c d : 10 <= b <= 36 -> digit c d -> d < b -> digitOf b c = Some d.
Proof. intros B [] L; unfold digitOf; repeat match goal with |- context [if ?b then _ else _] => let E := fresh in destruct b eqn:E end; f_equal; lia. Qed.
Lemma digit_range c d : digit c d -> 48 <= c <= 122 /\ 0 <= d.
Proof. intros []; lia. Qed.
Lemma numeral_shape b s v : numeral b s v -> exists c d t, s = c :: t /\ digit c d /\ d < b /\
  Forall (fun x => exists e, digit x e /\ e < b) t /\ v = fvalues b d t.
Proof.
  induction 1 as [c d D L|s v c d N (x & e & t & -> & X & Y & F & ->) D L].
  - exists c, d, []. repeat split; auto.
  - exists x, e, (t ++ [c]). repeat split; auto.
    + apply Forall_app. split; [exact F|]. constructor; eauto.
    + unfold fvalues. rewrite fold_left_app. cbn [fold_left]. rewrite (digit_digitOf _ _ D). reflexivity.
Qed.
Lemma numeral_chars b s v : numeral b s v -> s <> [] /\ Forall (fun c => 48 <= c <= 122) s.
Proof.
  intros N. apply numeral_shape in N as (c & d & t & -> & D & _ & F & _). split; [discriminate|].
  constructor; [apply (digit_range c d D)|]. eapply Forall_impl; [|exact F]. cbn beta. intros x (e & X & _). apply (digit_range x e X).
Qed.
Lemma u64_step n b c : u64 (u64 n * b + c) = u64 (n * b + c).
Proof. unfold u64. rewrite <- (Zplus_mod_idemp_l (n mod 2 ^ 64 * b)), Zmult_mod_idemp_l, Zplus_mod_idemp_l. reflexivity. Qed.
Definition stopper (b : Z) (r : list Z) : Prop := match r with [] => True | c :: _ => digitOf b c = None end.
Lemma numberLoop_stop b n r : 10 <= b <= 36 -> stopper b r -> numberLoop b n r = n.
Proof.
  intros B. destruct r as [|c r]; [reflexivity|]. unfold stopper, digitOf. cbn [numberLoop].
  destruct (_ && _); [discriminate|]. destruct (_ && _); [discriminate|]. destruct (_ && _); [discriminate|]. reflexivity.
Qed.
Lemma numberLoop_ok b : 10 <= b <= 36 -> forall t n r, Forall (fun x => exists e, digit x e /\ e < b) t ->
  Forall (fun c => ~ small c) (removelast t) -> stopper b r -> numberLoop b (u64 n) (t ++ r) = u64 (fvalues b n t).
Proof.
  intros B. induction t as [|c t IH]; intros n r F S R.
  - cbn [app]. rewrite numberLoop_stop by assumption. reflexivity.
  - apply Forall_cons_iff in F as ((e & D & L) & F). unfold fvalues. cbn [fold_left app numberLoop]. rewrite (digit_digitOf _ _ D).
    assert (S' : Forall (fun c => ~ small c) (removelast t) /\ (t <> [] -> ~ small c)).
    { destruct t as [|y t]; [split; [constructor|congruence]|]. change (removelast (c :: y :: t)) with (c :: removelast (y :: t)) in S.
      apply Forall_cons_iff in S as (X & S). auto. }
    destruct S' as (S' & SC). destruct D as [d D|d D|d D].
    + destruct ((48 <=? 48 + d) && (48 + d <=? 57)) eqn:Q; [|lia].
      replace (u64 n * b + (48 + d) - 48) with (u64 n * b + d) by lia. rewrite u64_step. apply IH; assumption.
    + destruct ((48 <=? 65 + (d - 10)) && (65 + (d - 10) <=? 57)) eqn:Q; [lia|].
      destruct ((65 <=? 65 + (d - 10)) && (65 + (d - 10) <? 65 + b - 10)) eqn:Q2; [|lia].
      replace (u64 n * b + (65 + (d - 10)) - 65 + 10) with (u64 n * b + d) by lia. rewrite u64_step. apply IH; assumption.
    + destruct ((48 <=? 97 + (d - 10)) && (97 + (d - 10) <=? 57)) eqn:Q; [lia|].
      destruct ((65 <=? 97 + (d - 10)) && (97 + (d - 10) <? 65 + b - 10)) eqn:Q2; [lia|].
      destruct ((97 <=? 97 + (d - 10)) && (97 + (d - 10) <? 97 + b - 10)) eqn:Q3; [|lia].
      replace (u64 n * b + (97 + (d - 10)) - 97 + 10) with (u64 n * b + d) by lia. rewrite u64_step.
      destruct t as [|y t]; [reflexivity|]. exfalso. apply SC; [discriminate|]. unfold small. lia.
Qed.
Lemma parseNumber_ok b s v r : 10 <= b <= 36 -> numeral b s v -> Forall (fun c => ~ small c) (removelast (tl s)) -> stopper b r ->
  parseNumber (s ++ r) b = u64 v.
Proof.
  intros B N S R. apply numeral_shape in N as (c & d & t & -> & D & L & F & ->). cbn [tl app parseNumber] in *.
  rewrite (digit_digitOf_b b c d B D L). replace d with (u64 d) at 1.
  - apply numberLoop_ok; assumption.
  - unfold u64. apply Z.mod_small. apply digit_range in D. lia.
Qed.
Lemma numeral_10_small s v : numeral 10 s v -> Forall (fun c => ~ small c) (removelast (tl s)).
Proof.
  intros N. apply numeral_shape in N as (c & d & t & -> & D & L & F & _). cbn [tl]. clear - F.
  induction t as [|x t IH]; [constructor|]. apply Forall_cons_iff in F as ((e & D & L) & F). specialize (IH F).
  destruct t as [|y t]; [constructor|]. change (removelast (x :: y :: t)) with (x :: removelast (y :: t)). constructor; [|exact IH].
  unfold small. destruct D; lia.
Qed.
Lemma parseNumber_10 s v : numeral 10 s v -> v < 2 ^ 64 -> parseNumber s 10 = v.
Proof.
  intros N L. rewrite <- (app_nil_r s). rewrite (parseNumber_ok 10 s v []); [|lia|exact N|eapply numeral_10_small, N|exact I].
  unfold u64. apply Z.mod_small. split; [|exact L]. apply numeral_shape in N as (c & d & t & -> & D & _ & F & ->).
  assert (forall t n, 0 <= n -> Forall (fun x => exists e, digit x e /\ e < 10) t -> 0 <= fvalues 10 n t).
  { clear. induction t as [|x t IH]; intros n H F; [exact H|]. apply Forall_cons_iff in F as ((e & D & L) & F). unfold fvalues in *. cbn [fold_left].
    apply IH; [|exact F]. rewrite (digit_digitOf _ _ D). apply digit_range in D. lia. }
  apply H; [apply digit_range in D; lia|exact F].
Qed.

(** ** blanks *)
Lemma blankb_spec c : reflect (blank c) (blankb c).
Proof. unfold blankb, blank. destruct (Z.eqb_spec c 32), (Z.eqb_spec c 9); constructor; lia. Qed.
Lemma trimLeft_blanks b x : Forall blank b -> trimLeft (b ++ x) = trimLeft x.
Proof. induction 1 as [|c b C F IH]; [reflexivity|]. cbn [app trimLeft]. destruct (blankb_spec c); [exact IH|contradiction]. Qed.
Lemma trimLeft_solid x : ~ blank (hd 0 x) -> trimLeft x = x.
Proof. destruct x as [|c x]; [reflexivity|]. cbn [hd trimLeft]. destruct (blankb_spec c); [contradiction|reflexivity]. Qed.
Lemma hd_rev (v : list Z) : hd 0 (rev v) = last v 0.
Proof.
  destruct v as [|c v] using rev_ind; [reflexivity|]. rewrite rev_app_distr, last_last. reflexivity.
Qed.
Lemma trim_ok b v a : Forall blank b -> solid v -> Forall blank a -> trim (b ++ v ++ a) = v.
Proof.
  intros B (H & L) A. unfold trim. rewrite trimLeft_blanks by exact B. destruct v as [|c v].
  - cbn [app]. rewrite <- (app_nil_r a), trimLeft_blanks by exact A. reflexivity.
  - rewrite (trimLeft_solid ((c :: v) ++ a)) by exact H. rewrite rev_app_distr, trimLeft_blanks by (apply Forall_rev, A).
    rewrite (trimLeft_solid (rev (c :: v))) by (rewrite hd_rev; exact L). apply rev_involutive.
Qed.

(** ** the header section *)
Definition setHdrs (h : hmap) (i : list Z) (s : resp) : resp :=
  mkResp i false (rlen s) (cur s) (cloaded s) (mode s) h (status s) (message s) (opened s) (parsed s).
Definition addAll (fs : list rfield) (h : hmap) : hmap := fold_left (fun h f => hinsert (fname f) (fvalue f) h) fs h.
Lemma blank_no_cr b : Forall blank b -> no_cr b.
Proof. apply Forall_impl. unfold blank. intros. lia. Qed.
Lemma headerLoop_line f fuel s rest : rfield_ok f -> eof s = false -> inp s = rfield_text f ++ rest ->
  headerLoop (S fuel) s = headerLoop fuel (setHdrs (hinsert (fname f) (fvalue f) (rhdrs s)) rest s).
Proof.
  intros (N & SN & SV & CN & CV & C & B & A) E I. cbn [headerLoop].
  unfold rfield_text in I. rewrite (readLine_line s (fname f ++ [58] ++ fbefore f ++ fvalue f ++ fafter f) rest E).
  - cbn [app]. destruct (fname f ++ 58 :: fbefore f ++ fvalue f ++ fafter f) eqn:Q; [destruct (fname f); discriminate|]. rewrite <- Q.
    rewrite (findc_app 58 (fname f) _ C), firstn_len, skipn_len. rewrite (trim_ok _ _ _ B SV A).
    replace (trim (fname f)) with (fname f); [destruct s; reflexivity|].
    symmetry. rewrite <- (app_nil_r (fname f)) at 1. exact (trim_ok [] (fname f) [] (Forall_nil _) SN (Forall_nil _)).
  - rewrite I. repeat rewrite <- app_assoc. reflexivity.
  - repeat apply no_cr_app; auto using blank_no_cr. apply Forall_cons; [discriminate|constructor].
Qed.
Lemma headerLoop_fields fs : forall fuel s rest, Forall rfield_ok fs -> eof s = false -> inp s = concat (map rfield_text fs) ++ rest ->
  headerLoop (length fs + fuel) s = headerLoop fuel (setHdrs (addAll fs (rhdrs s)) rest s).
Proof.
  induction fs as [|f fs IH]; intros fuel s rest O E I; cbn [map concat app length Nat.add addAll fold_left] in *.
  - f_equal. destruct s; cbn in *; subst; reflexivity.
  - apply Forall_cons_iff in O as (A & O). rewrite <- app_assoc in I. rewrite (headerLoop_line f _ s _ A E I).
    rewrite (IH _ _ rest O); [reflexivity..|]. reflexivity.
Qed.
Lemma headerLoop_ok fs fuel s rest : Forall rfield_ok fs -> eof s = false -> (length fs < fuel)%nat ->
  inp s = concat (map rfield_text fs) ++ crlf ++ rest ->
  headerLoop fuel s = Ok (true, setHdrs (addAll fs (rhdrs s)) rest s).
Proof.
  intros O E F I. replace fuel with (length fs + S (fuel - length fs - 1))%nat by lia.
  rewrite (headerLoop_fields fs _ s _ O E I). cbn [headerLoop].
  rewrite (readLine_line _ [] rest); [|reflexivity|reflexivity|constructor]. destruct s; reflexivity.
Qed.
Lemma headerLoop_cut fs fuel s t : Forall rfield_ok fs -> eof s = false -> (length fs < fuel)%nat -> no_cr t ->
  inp s = concat (map rfield_text fs) ++ t ->
  headerLoop fuel s = Ok (true, setInp [] true (setHdrs (addAll fs (rhdrs s)) [] s)).
Proof.
  intros O E F N I. replace fuel with (length fs + S (fuel - length fs - 1))%nat by lia.
  rewrite (headerLoop_fields fs _ s _ O E I). cbn [headerLoop].
  rewrite (readLine_cut _ t); [|reflexivity|reflexivity|exact N]. destruct s; reflexivity.
Qed.
Lemma addAll_find fs : forall h k, in_order h ->
  hfind k (addAll fs h) = match hfind k h with Some x => Some x | None => first_value k (map rfield_pair fs) end.
Proof.
  induction fs as [|f fs IH]; intros h k O; cbn [addAll fold_left map first_value rfield_pair].
  - destruct (hfind k h); reflexivity.
  - change (fold_left _ fs ?x) with (addAll fs x). rewrite IH by (apply hinsert_order, O). rewrite hinsert_find by exact O.
    destruct (hfind k h); [reflexivity|]. destruct (text_eqb k (fname f)); reflexivity.
Qed.
Lemma fields_length fs : (length fs <= length (concat (map rfield_text fs)))%nat.
Proof.
  induction fs as [|f fs IH]; [cbn; lia|]. cbn [map concat length]. rewrite app_length. unfold rfield_text at 1.
  repeat rewrite app_length. cbn [length]. lia.
Qed.

(** ** opening a response *)
Definition fresh (s : resp) : Prop := opened s = false /\ rhdrs s = [].
Lemma chooseMode_status s : status (chooseMode s) = status s.
Proof. unfold chooseMode. destruct (text_eqb _ _); [reflexivity|]. destruct (getHeader _ _); reflexivity. Qed.
Definition headed (s : resp) (i : list Z) (e : bool) (fs : list rfield) (v : Z) (msg : option (list Z)) : resp :=
  mkResp i e (rlen s) (cur s) (cloaded s) (mode s) (addAll fs []) v msg true false.
Definition line_of (version code : list Z) (reason : option (list Z)) : list Z :=
  version ++ 32 :: code ++ match reason with Some r => 32 :: r | None => [] end.
Lemma open_line fuel s k version code reason v rest ok s2 : fresh s -> (k < fuel)%nat ->
  Forall (fun c => c <> 32) version -> no_cr version -> match reason with Some r => no_cr r | None => True end ->
  numeral 10 code v -> v < 2 ^ 64 ->
  inp s = concat (repeat crlf k) ++ line_of version code reason ++ crlf ++ rest ->
  headerLoop (S (length rest)) (headed s rest false [] v reason) = Ok (ok, s2) ->
  open fuel s = if ok then Ok (chooseMode s2, status s2) else Ok (s2, naturalNull).
Proof.
  intros (O & H) K V CV CR N L I HL. unfold open. rewrite O.
  set (s1 := mkResp (inp s) false _ _ _ _ _ _ _ _ _).
  destruct (numeral_chars _ _ _ N) as (NE & F).
  assert (NC : no_cr code) by (eapply Forall_impl; [|exact F]; cbn beta; intros; lia).
  rewrite (statusLine_ok k fuel s1 (line_of version code reason) rest K eq_refl).
  - cbn [obind]. unfold line_of. rewrite (findc_app 32 version _ V), skipn_len.
    assert (N32 : Forall (fun c => c <> 32) code) by (eapply Forall_impl; [|exact F]; cbn beta; intros; lia).
    assert (E : (match findc 32 (code ++ match reason with Some r => 32 :: r | None => [] end) with
            | Some m => (firstn m (code ++ match reason with Some r => 32 :: r | None => [] end), Some (skipn (m + 1) (code ++ match reason with Some r => 32 :: r | None => [] end)))
            | None => (code ++ match reason with Some r => 32 :: r | None => [] end, None) end) = (code, reason)).
    { destruct reason as [r|].
      - rewrite (findc_app 32 code r N32), firstn_len, skipn_len. reflexivity.
      - rewrite app_nil_r, (findc_none 32 code N32). reflexivity. }
    rewrite E. cbn [inp eof setInp rlen cur cloaded mode rhdrs opened parsed s1]. rewrite H, (parseNumber_10 code v N L).
    unfold headed in HL. cbn [addAll fold_left] in HL. rewrite HL. cbn [obind]. destruct ok; cbn [negb]; [|reflexivity].
    rewrite chooseMode_status. reflexivity.
  - unfold line_of. destruct version; discriminate.
  - unfold line_of. apply no_cr_app; [exact CV|]. apply Forall_cons; [discriminate|]. apply no_cr_app; [exact NC|].
    destruct reason; [apply Forall_cons; [discriminate|exact CR]|constructor].
  - exact I.
Qed.
Lemma open_ok fuel s k version code reason fs v rest : fresh s -> (k < fuel)%nat -> head_ok version code reason fs ->
  numeral 10 code v -> v < 2 ^ 64 ->
  inp s = concat (repeat crlf k) ++ response_head version code reason fs ++ rest ->
  open fuel s = Ok (chooseMode (headed s rest false fs v (Some reason)), v).
Proof.
  intros F K (_ & V & CV & CR & O) N L I. unfold response_head in I.
  rewrite (open_line fuel s k version code (Some reason) v (concat (map rfield_text fs) ++ crlf ++ rest) true
             (headed s rest false fs v (Some reason)) F K V CV CR N L).
  - reflexivity.
  - rewrite I. unfold line_of. repeat rewrite <- app_assoc. cbn [app]. repeat rewrite <- app_assoc. reflexivity.
  - rewrite (headerLoop_ok fs _ _ rest); [reflexivity|exact O|reflexivity| |reflexivity].
    rewrite app_length. pose proof (fields_length fs). lia.
Qed.
Lemma chooseMode_find s fs i e v msg k : hfind k (rhdrs (headed s i e fs v msg)) = first_value k (map rfield_pair fs).
Proof. cbn [headed rhdrs]. rewrite addAll_find by exact I. reflexivity. Qed.

(** ** a body of known length *)
Definition linv (b rest : list Z) (s : resp) : Prop :=
  mode s = Some Limited /\ rlen s = Z.of_nat (length b) /\ Z.of_nat (length b) < 2 ^ 64 /\
  if cloaded s then exists c t, b = c :: t /\ cur s = c /\ inp s = t ++ rest else inp s = b ++ rest.
Lemma load_ok (b rest : list Z) s : b <> [] ->
  (if cloaded s then exists c t, b = c :: t /\ cur s = c /\ inp s = t ++ rest else inp s = b ++ rest) ->
  exists s', load s = Ok s' /\ cloaded s' = true /\ cur s' = hd 0 b /\ inp s' = tl b ++ rest /\
    mode s' = mode s /\ rlen s' = rlen s /\ eof s' = eof s /\ opened s' = opened s /\ parsed s' = parsed s.
Proof.
  intros N H. unfold load. destruct (cloaded s) eqn:C.
  - destruct H as (c & t & -> & A & B). exists s. cbn [hd tl]. auto 12.
  - unfold fetchByte. destruct b as [|c t]; [contradiction|]. rewrite H. cbn [app]. eexists. split; [reflexivity|]. cbn [hd tl cloaded cur inp mode rlen eof opened parsed]. auto 12.
Qed.
Lemma u64_id x : 0 <= x < 2 ^ 64 -> u64 x = x.
Proof. apply Z.mod_small. Qed.
Definition body_step (P : list Z -> resp -> Prop) fuel o b s : Prop :=
  exists s', rstep fuel o s = Ok (s', snd (cursor o b)) /\ P (fst (cursor o b)) s' /\ opened s' = opened s /\ parsed s' = parsed s.
Lemma linv_step fuel o b rest s : linv b rest s -> in_body [o] b -> body_step (fun b => linv b rest) fuel o b s.
Proof.
  intros (M & R & L & H) I. unfold body_step. destruct o; cbn [rstep cursor snd fst in_body] in *.
  - unfold hasItems. rewrite M. cbn [obind]. eexists. split.
    + replace (cloaded s || (0 <? rlen s)) with (match b with [] => false | _ => true end); [reflexivity|].
      rewrite R. destruct (cloaded s); [destruct H as (c & t & -> & _); reflexivity|]. destruct b; [reflexivity|]. cbn [length orb]. lia.
    + repeat split; assumption.
  - destruct I as (N & _). destruct (load_ok b rest s N H) as (s' & E & C' & X & Y & M' & R' & _ & O' & P'). unfold getNext. rewrite M, E.
    cbn [obind]. rewrite X. eexists. split; [reflexivity|]. destruct b as [|c t]; [contradiction|].
    unfold linv. cbn [mode rlen cloaded setLoaded setLen inp tl opened parsed length] in *. rewrite M', R', R. split; [|auto].
    split; [exact M|]. split; [|split; [lia|exact Y]]. rewrite u64_id; lia.
  - destruct I as (N & _). destruct (load_ok b rest s N H) as (s' & E & C' & X & Y & M' & R' & _ & O' & P'). unfold peek. rewrite M, E.
    cbn [obind]. rewrite X. exists s'. split; [reflexivity|]. split; [|auto]. unfold linv. rewrite M', R', C'. repeat split; try assumption.
    destruct b as [|c t]; [contradiction|]. exists c, t. auto.
Qed.
Lemma linv_steps fuel rest os : forall b s, linv b rest s -> in_body os b ->
  exists s', rsteps fuel os s = Ok (s', snd (cursors os b)) /\ linv (fst (cursors os b)) rest s' /\ opened s' = opened s /\ parsed s' = parsed s.
Proof.
  induction os as [|o os IH]; intros b s V I; cbn [rsteps cursors].
  - exists s. auto.
  - assert (I1 : in_body [o] b /\ in_body os (fst (cursor o b))) by (destruct o; cbn [in_body cursor fst] in *; tauto).
    destruct I1 as (I1 & I2). destruct (linv_step fuel o b rest s V I1) as (s1 & -> & V1 & O1 & P1). cbn [obind].
    destruct (IH _ s1 V1 I2) as (s2 & -> & V2 & O2 & P2). cbn [obind]. destruct (cursor o b) as [b1 a1]. cbn [fst snd] in *.
    destruct (cursors os b1) as [b2 l2]. exists s2. cbn [fst snd] in *. split; [reflexivity|]. split; [exact V2|]. split; congruence.
Qed.
Lemma linv_drain rest : forall b fuel s, linv b rest s -> (length b < fuel)%nat ->
  exists s', drain fuel s = Ok s' /\ inp s' = rest.
Proof.
  induction b as [|c b IH]; intros [|fuel] s V F; cbn [length] in F; try lia; cbn [drain];
  destruct (linv_step (S fuel) HasItems _ rest s V I) as (s1 & E & V1 & _); cbn [rstep cursor fst snd] in *;
  destruct (hasItems (S fuel) s) as [(m, s1')| | |]; cbn [obind] in *; try discriminate; injection E as -> ->.
  - exists s1. split; [reflexivity|]. destruct V1 as (_ & _ & _ & H). destruct (cloaded s1); [destruct H as (? & ? & ? & _); discriminate|exact H].
  - destruct (linv_step (S fuel) GetNext _ rest s1 V1) as (s2 & E2 & V2 & _); [cbn [in_body]; split; [discriminate|exact I]|].
    cbn [rstep cursor fst snd] in *. destruct (getNext (S fuel) s1) as [(s2', x)| | |]; cbn [obind] in *; try discriminate. injection E2 as -> ->.
    apply (IH fuel s2 V2). lia.
Qed.

(** ** a chunked body *)
Definition cinv (b rest : list Z) (s : resp) : Prop :=
  mode s = Some Chunk /\ eof s = false /\
  ((exists d body text, d <> [] /\ b = d ++ body /\ chunked few_small body text /\ rlen s = Z.of_nat (length d) /\ Z.of_nat (length d) < 2 ^ 64 /\
      if cloaded s then exists c t, d = c :: t /\ cur s = c /\ inp s = t ++ crlf ++ text ++ rest else inp s = d ++ crlf ++ text ++ rest)
   \/ (exists pre text, (pre = [] \/ pre = crlf) /\ chunked few_small b text /\ rlen s = 0 /\ cloaded s = false /\ inp s = pre ++ text ++ rest)).
(** at the end *)
Definition cend (rest : list Z) (s : resp) : Prop :=
  mode s = Some Chunk /\ eof s = true /\ rlen s = 0 /\ cloaded s = false /\ inp s = rest.
Lemma chunkLine_pre fuel s pre l r : (2 <= fuel)%nat -> eof s = false -> (pre = [] \/ pre = crlf) -> l <> [] -> no_cr l ->
  inp s = pre ++ l ++ crlf ++ r -> chunkLine fuel s = Ok (l, setInp r false s).
Proof.
  intros F E [-> | ->] L N I; rewrite chunkLine_status.
  - apply (statusLine_ok 0); auto. lia.
  - apply (statusLine_ok 1); auto.
Qed.
Lemma size_line size ext v : numeral 16 size v -> extension ext -> few_small size -> 0 <= v < 2 ^ 64 ->
  size ++ ext <> [] /\ no_cr (size ++ ext) /\ parseNumber (size ++ ext) 16 = v.
Proof.
  intros N (E & F) S V. destruct (numeral_chars _ _ _ N) as (NE & C). split; [destruct size; [contradiction|discriminate]|]. split.
  - apply no_cr_app; [|exact F]. eapply Forall_impl; [|exact C]. cbn beta. intros; lia.
  - rewrite (parseNumber_ok 16 size v ext) by first [assumption | lia | destruct ext; [exact I|subst; reflexivity]]. apply u64_id, V.
Qed.
Lemma openChunk_more fuel b rest s pre text : (2 <= fuel)%nat -> mode s = Some Chunk -> eof s = false -> (pre = [] \/ pre = crlf) ->
  chunked few_small b text -> b <> [] -> inp s = pre ++ text ++ rest ->
  exists s', openChunk fuel s = Ok (true, s') /\ cinv b rest s' /\ cloaded s' = false /\ rlen s' <> 0 /\ opened s' = opened s /\ parsed s' = parsed s.
Proof.
  intros F M E P C B I. destruct C as [size ext N X S|size ext data body text D N X S L C]; [contradiction|].
  destruct (size_line size ext _ N X S ltac:(lia)) as (Q1 & Q2 & Q3). unfold openChunk.
  rewrite (chunkLine_pre fuel s pre (size ++ ext) (data ++ crlf ++ text ++ rest) F E P Q1 Q2).
  - cbn [obind]. rewrite Q3. cbn [setLen rlen]. assert (Z.of_nat (length data) <> 0) by (destruct data; [contradiction|cbn [length]; lia]).
    destruct (Z.eqb_spec (Z.of_nat (length data)) 0); [contradiction|]. eexists. split; [reflexivity|].
    unfold cinv. cbn [setLoaded setLen setInp mode eof rlen cloaded cur inp opened parsed]. repeat split; auto.
    left. exists data, body, text. auto 12.
  - rewrite I. repeat rewrite <- app_assoc. reflexivity.
Qed.
Lemma openChunk_last fuel rest s pre text : (2 <= fuel)%nat -> mode s = Some Chunk -> eof s = false -> cloaded s = false -> (pre = [] \/ pre = crlf) ->
  chunked few_small [] text -> inp s = pre ++ text ++ rest ->
  exists s', openChunk fuel s = Ok (false, s') /\ cend rest s' /\ opened s' = opened s /\ parsed s' = parsed s.
Proof.
  intros F M E CL P C I. remember [] as b eqn:B. destruct C as [size ext N X S|size ext data body text D N X S L C];
  [|destruct data; [contradiction|discriminate]].
  destruct (size_line size ext _ N X S ltac:(lia)) as (Q1 & Q2 & Q3). unfold openChunk.
  rewrite (chunkLine_pre fuel s pre (size ++ ext) (crlf ++ rest) F E P Q1 Q2).
  - cbn [obind]. rewrite Q3. cbn [setLen rlen Z.eqb]. rewrite (readLine_line _ [] rest); [|reflexivity|reflexivity|constructor].
    eexists. split; [reflexivity|]. unfold cend. cbn [setInp setLen inp mode eof rlen cloaded opened parsed]. auto 12.
  - rewrite I. repeat rewrite <- app_assoc. reflexivity.
Qed.
(** the next byte is at hand *)
Lemma cinv_load fuel b rest s : (2 <= fuel)%nat -> cinv b rest s -> b <> [] ->
  exists s' d body text, loadChunk fuel s = Ok s' /\ d <> [] /\ b = d ++ body /\ chunked few_small body text /\ rlen s' = Z.of_nat (length d) /\
    Z.of_nat (length d) < 2 ^ 64 /\ mode s' = Some Chunk /\ eof s' = false /\ cloaded s' = true /\ cur s' = hd 0 d /\ inp s' = tl d ++ crlf ++ text ++ rest /\
    opened s' = opened s /\ parsed s' = parsed s.
Proof.
  intros F V B.
  assert (K : forall s d body text, mode s = Some Chunk -> eof s = false -> d <> [] -> b = d ++ body -> chunked few_small body text -> rlen s = Z.of_nat (length d) ->
    Z.of_nat (length d) < 2 ^ 64 ->
    (if cloaded s then exists c t, d = c :: t /\ cur s = c /\ inp s = t ++ crlf ++ text ++ rest else inp s = d ++ crlf ++ text ++ rest) ->
    exists s', load s = Ok s' /\ rlen s' = Z.of_nat (length d) /\ mode s' = Some Chunk /\ eof s' = false /\ cloaded s' = true /\ cur s' = hd 0 d /\
      inp s' = tl d ++ crlf ++ text ++ rest /\ opened s' = opened s /\ parsed s' = parsed s).
  { clear. intros s d body text M E D Bd C R L H. destruct (load_ok d (crlf ++ text ++ rest) s D H) as (s' & E1 & A1 & A2 & A3 & A4 & A5 & A6 & A7 & A8).
    exists s'. rewrite A4, A5, A6. auto 12. }
  destruct V as (M & E & [(d & body & text & D & Bd & C & R & L & H)|(pre & text & P & C & R & CL & H)]).
  - destruct (K s d body text M E D Bd C R L H) as (s' & E1 & A). exists s', d, body, text. split; [|tauto].
    unfold loadChunk. destruct (cloaded s) eqn:CL; [unfold load in E1; rewrite CL in E1; exact E1|].
    destruct (Z.eqb_spec (rlen s) 0) as [Z0|_]; [destruct d; [contradiction|cbn [length] in R; lia]|]. cbn [obind]. exact E1.
  - destruct (openChunk_more fuel b rest s pre text F M E P C B H) as (s1 & E1 & V1 & C1 & R1 & O1 & P1).
    destruct V1 as (M1 & E1' & [(d & body & text' & D & Bd & C' & R' & L & H')|(? & ? & _ & _ & ? & _)]); [|lia].
    destruct (K s1 d body text' M1 E1' D Bd C' R' L H') as (s' & E2 & A). exists s', d, body, text'. split; [|rewrite <- O1, <- P1; tauto].
    unfold loadChunk. rewrite CL, R. cbn [Z.eqb]. rewrite E1. cbn [obind]. exact E2.
Qed.
Lemma peek_load fuel s b rest s' : (2 <= fuel)%nat -> cinv b rest s -> b <> [] -> loadChunk fuel s = Ok s' -> peek fuel s = Ok (s', cur s').
Proof.
  intros F (M & E & H) B L. unfold peek. rewrite M. unfold loadChunk in L. destruct (cloaded s) eqn:C; [injection L as ->; reflexivity|].
  destruct (Z.eqb_spec (rlen s) 0) as [Z0|].
  - destruct H as [(d & ? & ? & D & _ & _ & R & _)|(pre & text & P & Ch & _ & _ & I)]; [destruct d; [contradiction|cbn [length] in R; lia]|].
    destruct (openChunk_more fuel b rest s pre text F M E P Ch B I) as (s1 & E1 & (_ & V & _) & _). rewrite E1 in *. cbn [obind] in *. rewrite V. cbn [obind].
    rewrite L. reflexivity.
  - cbn [obind] in *. rewrite L. reflexivity.
Qed.
Definition cstate (b rest : list Z) (s : resp) : Prop := cinv b rest s \/ b = [] /\ cend rest s.
Lemma cinv_step fuel o b rest s : (2 <= fuel)%nat -> cinv b rest s -> in_body [o] b ->
  exists s', rstep fuel o s = Ok (s', snd (cursor o b)) /\ opened s' = opened s /\ parsed s' = parsed s /\
    match o, b with HasItems, [] => cend rest s' | _, _ => cinv (fst (cursor o b)) rest s' end.
Proof.
  intros F V I. destruct o; cbn [rstep cursor snd fst in_body] in *.
  - unfold hasItems. pose proof V as (M & E & H). rewrite M.
    destruct b as [|x b].
    + destruct H as [(d & ? & ? & D & B & _)|(pre & text & P & C & R & CL & Hi)]; [destruct d; [contradiction|discriminate]|].
      rewrite CL, R. cbn [orb Z.ltb Z.compare]. destruct (openChunk_last fuel rest s pre text F M E CL P C Hi) as (s' & -> & V' & O' & P'). cbn [obind].
      exists s'. auto.
    + destruct H as [(d & ? & ? & D & B & _ & R & _)|(pre & text & P & C & R & CL & Hi)].
      * replace (cloaded s || (0 <? rlen s)) with true; [cbn [obind]; exists s; auto|]. destruct d; [contradiction|]. rewrite R. cbn [length]. lia.
      * rewrite CL, R. cbn [orb Z.ltb Z.compare]. destruct (openChunk_more fuel (x :: b) rest s pre text F M E P C) as (s' & -> & V' & _ & _ & O' & P'); [discriminate|exact Hi|].
        cbn [obind]. exists s'. auto.
  - destruct I as (N & _). pose proof V as (M & _).
    destruct (cinv_load fuel b rest s F V N) as (s' & d & body & text & L & D & B & C & R & Lt & M' & E' & CL & CU & IN & O & P).
    unfold getNext. rewrite M, L. cbn [obind]. rewrite CU. replace (hd 0 b) with (hd 0 d) by (subst b; destruct d; [contradiction|reflexivity]).
    eexists. split; [reflexivity|]. cbn [setLoaded setLen opened parsed]. split; [exact O|]. split; [exact P|].
    unfold cinv. cbn [setLoaded setLen mode eof rlen cloaded inp cur]. rewrite M', E', R, IN. split; [reflexivity|]. split; [reflexivity|].
    destruct d as [|c [|c' d]]; [contradiction| |]; subst b; cbn [tl app length] in *.
    + right. exists crlf, text. auto.
    + left. exists (c' :: d), body, text. repeat split; auto; [discriminate| |cbn [length]; lia]. rewrite u64_id; cbn [length]; lia.
  - destruct I as (N & _). pose proof V as (M & _).
    destruct (cinv_load fuel b rest s F V N) as (s' & d & body & text & L & D & B & C & R & Lt & M' & E' & CL & CU & IN & O & P).
    rewrite (peek_load fuel s b rest s' F V N L). cbn [obind]. rewrite CU. replace (hd 0 b) with (hd 0 d) by (subst b; destruct d; [contradiction|reflexivity]).
    exists s'. split; [reflexivity|]. split; [exact O|]. split; [exact P|]. unfold cinv. rewrite CL. split; [exact M'|]. split; [exact E'|].
    left. exists d, body, text. repeat split; auto. destruct d as [|c d]; [contradiction|]. exists c, d. auto.
Qed.
Lemma cinv_steps fuel rest os : (2 <= fuel)%nat -> forall b s, cinv b rest s -> in_body os b -> stops os b ->
  exists s', rsteps fuel os s = Ok (s', snd (cursors os b)) /\ opened s' = opened s /\ parsed s' = parsed s /\
    (In (Yes false) (snd (cursors os b)) -> cend rest s') /\
    (In (Yes false) (snd (cursors os b)) \/ cinv (fst (cursors os b)) rest s').
Proof.
  intros F. induction os as [|o os IH]; intros b s V I S; cbn [rsteps cursors].
  - exists s. cbn. tauto.
  - assert (I1 : in_body [o] b /\ in_body os (fst (cursor o b)) /\ stops os (fst (cursor o b)))
      by (destruct o; cbn [in_body cursor fst stops] in *; tauto).
    destruct I1 as (I1 & I2 & S2). destruct (cinv_step fuel o b rest s F V I1) as (s1 & E1 & O1 & P1 & V1). rewrite E1. cbn [obind].
    assert (D : (o = HasItems /\ b = []) \/ (cinv (fst (cursor o b)) rest s1 /\ snd (cursor o b) <> Yes false)).
    { destruct o; [destruct b; [left; auto|right; split; [exact V1|discriminate]]|right..]; (split; [exact V1|discriminate]). }
    destruct D as [(-> & ->)|(V1' & NY)].
    + cbn [stops] in S. destruct S as (S & _). rewrite (S eq_refl) in *. cbn [rsteps obind cursor cursors snd fst] in *. exists s1. split; [reflexivity|]. split; [exact O1|]. split; [exact P1|]. split; [intros _; exact V1|]. left. left. reflexivity.
    + destruct (IH _ s1 V1' I2 S2) as (s2 & E2 & O2 & P2 & A & B). rewrite E2. cbn [obind]. destruct (cursor o b) as [b1 a1]. cbn [fst snd] in *.
      destruct (cursors os b1) as [b2 l2]. exists s2. cbn [fst snd In] in *. split; [reflexivity|]. split; [congruence|]. split; [congruence|]. tauto.
Qed.
Lemma cend_stuck fuel rest s : cend rest s -> hasItems fuel s = NoFuel.
Proof.
  intros (M & E & R & C & _). unfold hasItems, openChunk. rewrite M, C, R, chunkLine_status. cbn [orb Z.ltb Z.compare].
  rewrite (statusLine_eof fuel s E). reflexivity.
Qed.

(** ** a body that ends with the connection *)
Definition dinv (b : list Z) (s : resp) : Prop :=
  mode s = Some Direct /\ if cloaded s then exists c t, b = c :: t /\ cur s = c /\ inp s = t else inp s = b.
Lemma dinv_step fuel o b s : dinv b s -> in_body [o] b -> exists s', rstep fuel o s = Ok (s', snd (cursor o b)) /\ dinv (fst (cursor o b)) s'.
Proof.
  intros (M & H) I. destruct o; cbn [rstep cursor snd fst in_body] in *.
  - unfold hasItems. rewrite M. unfold dinv. destruct (cloaded s) eqn:C.
    + cbn [obind]. exists s. rewrite C. destruct H as (c & t & -> & A & B). split; [reflexivity|]. split; [exact M|]. eauto.
    + unfold fetchByte. rewrite H. destruct b as [|c t]; cbn [obind]; eexists; (split; [reflexivity|]); cbn [setInp mode cloaded inp cur]; split; auto.
      * rewrite C. reflexivity.
      * eauto.
  - destruct I as (N & _). assert (H' : if cloaded s then exists c t, b = c :: t /\ cur s = c /\ inp s = t ++ [] else inp s = b ++ []).
    { destruct (cloaded s); [destruct H as (c & t & A); exists c, t; rewrite app_nil_r; exact A|rewrite app_nil_r; exact H]. }
    destruct (load_ok b [] s N H') as (s' & E & C' & X & Y & M' & _). unfold getNext. rewrite M, E. cbn [obind]. rewrite X. eexists. split; [reflexivity|].
    unfold dinv. cbn [setLoaded mode cloaded inp]. rewrite M', Y, app_nil_r. auto.
  - destruct I as (N & _). assert (H' : if cloaded s then exists c t, b = c :: t /\ cur s = c /\ inp s = t ++ [] else inp s = b ++ []).
    { destruct (cloaded s); [destruct H as (c & t & A); exists c, t; rewrite app_nil_r; exact A|rewrite app_nil_r; exact H]. }
    destruct (load_ok b [] s N H') as (s' & E & C' & X & Y & M' & _). unfold peek. rewrite M, E. cbn [obind]. rewrite X. exists s'. split; [reflexivity|].
    unfold dinv. rewrite M', C', Y, app_nil_r. split; [exact M|]. destruct b as [|c t]; [contradiction|]. exists c, t. auto.
Qed.
Lemma dinv_steps fuel os : forall b s, dinv b s -> in_body os b ->
  exists s', rsteps fuel os s = Ok (s', snd (cursors os b)) /\ dinv (fst (cursors os b)) s'.
Proof.
  induction os as [|o os IH]; intros b s V I; cbn [rsteps cursors].
  - exists s. auto.
  - assert (I1 : in_body [o] b /\ in_body os (fst (cursor o b))) by (destruct o; cbn [in_body cursor fst] in *; tauto).
    destruct I1 as (I1 & I2). destruct (dinv_step fuel o b s V I1) as (s1 & -> & V1). cbn [obind].
    destruct (IH _ s1 V1 I2) as (s2 & -> & V2). cbn [obind]. destruct (cursor o b) as [b1 a1]. cbn [fst snd] in *.
    destruct (cursors os b1) as [b2 l2]. exists s2. auto.
Qed.

(** ** how the body ends *)
Lemma hfind_first k m : hfind k m = first_value k m.
Proof. induction m as [|(x, v) m IH]; [reflexivity|]. cbn [hfind first_value]. rewrite IH. reflexivity. Qed.
Lemma getHeader_first s i e fs v msg k : getHeader k (headed s i e fs v msg) = match first_value k (map rfield_pair fs) with Some x => x | None => [] end.
Proof. unfold getHeader. rewrite chooseMode_find. reflexivity. Qed.
Definition TE := tx "Transfer-Encoding".
Definition CL := tx "Content-Length".
Definition chosen (s : resp) (i : list Z) (e : bool) (fs : list rfield) (v : Z) (msg : option (list Z)) (m : rmode) (n : Z) : resp :=
  mkResp i e n (cur s) false (Some m) (addAll fs []) v msg true true.
Lemma choose_chunked s i e fs v msg : first_value TE (map rfield_pair fs) = Some (tx "chunked") ->
  chooseMode (headed s i e fs v msg) = chosen s i e fs v msg Chunk 0.
Proof. intros H. unfold chooseMode. rewrite getHeader_first. fold TE. rewrite H, text_eqb_refl. reflexivity. Qed.
Lemma choose_limited s i e fs v msg cl n : first_value TE (map rfield_pair fs) = None -> first_value CL (map rfield_pair fs) = Some cl ->
  numeral 10 cl n -> n < 2 ^ 64 -> chooseMode (headed s i e fs v msg) = chosen s i e fs v msg Limited n.
Proof.
  intros H1 H2 N L. unfold chooseMode. rewrite !getHeader_first. fold TE CL. rewrite H1, H2.
  change (text_eqb [] (tx "chunked")) with false. cbn match. destruct (numeral_chars _ _ _ N) as (NE & _).
  pose proof (parseNumber_10 cl n N L) as P. destruct cl; [contradiction|]. rewrite P. reflexivity.
Qed.
Lemma choose_direct s i e fs v msg : first_value TE (map rfield_pair fs) = None -> first_value CL (map rfield_pair fs) = None ->
  chooseMode (headed s i e fs v msg) = chosen s i e fs v msg Direct naturalNull.
Proof. intros H1 H2. unfold chooseMode. rewrite !getHeader_first. fold TE CL. rewrite H1, H2. reflexivity. Qed.
