(** Properties of the strings (C239 to C246). *)
From Coq Require Import ZArith Lia.
From Verif Require Import Common Str_Spec Str_Model Str_Proof.
Local Open Scope Z_scope.

(** C239: strings behave as plain values, over every history without an assignment of a
    variable to itself and without createBuffer on strings with a closing zero: every answer is
    the one of the plain values, nothing undefined happens, and every buffer that is still
    allocated belongs to some variable. *)
Theorem string_value : forall (zero : bool) (n : nat) (os : list op),
  ops_ok os (repeat [] n) -> Forall (plain_op zero) os ->
  exists s, run zero os (start n) = Ok (s, snd (spec_run os (repeat [] n))) /\
    (forall v, (v < n)%nat -> read zero s v = Ok (value (fst (spec_run os (repeat [] n))) v)) /\
    (forall p, nth p (heap s) None <> None -> exists v, ptr s v = Some p).
Proof.
  intros zero n os K P. destruct (run_ok zero os _ _ (inv_start zero n) K P) as (s & R & I).
  exists s. split; [exact R|]. split; [|intros p L; exact (no_leak zero s _ p I L)].
  intros v V. apply read_ok; [exact I|].
  assert (E : forall os vs, length (fst (spec_run os vs)) = length vs).
  { clear. induction os as [|o os IH]; intros vs; cbn [spec_run]; [reflexivity|].
    destruct (spec_step o vs) as [vs1 a] eqn:S. specialize (IH vs1). destruct (spec_run os vs1). cbn [fst] in *. rewrite IH.
    destruct o; cbn [spec_step] in S; injection S as <- _; rewrite ?upd_length; reflexivity. }
  rewrite E, repeat_length. exact V.
Qed.
Print Assumptions string_value.

Definition sample : list op :=
  [Load 0 [72; 105]; Assign 1 0; Put 1 0 90; Read 0; Read 1; Copy 2 0; GetMT 0 1; CStr 0; Stream 1 2 [1; 2; 3]; Clear 2; Read 1; CStr 2].
Example string_value_holds : ops_ok sample (repeat [] 3) /\ Forall (plain_op true) sample /\
  snd (spec_run sample (repeat [] 3)) = [[]; []; []; [72; 105]; [90; 105]; []; []; [90; 105]; []; []; [1; 2]; []].
Proof.
  split; [|split]; [|repeat constructor; discriminate|reflexivity].
  cbn [sample ops_ok op_ok spec_step fst repeat upd value nth length]. repeat split; lia.
Qed.
Definition sample_bytes : list op := [Load 0 [7]; Create 1 3 [1; 0; 2]; Assign 0 1; Put 1 2 5; Read 0; Read 1].
Example string_value_bytes : ops_ok sample_bytes (repeat [] 2) /\ Forall (plain_op false) sample_bytes /\
  snd (spec_run sample_bytes (repeat [] 2)) = [[]; []; []; []; [1; 0; 2]; [1; 0; 5]].
Proof.
  split; [|split]; [|repeat constructor; discriminate|reflexivity].
  cbn [sample_bytes ops_ok op_ok spec_step fst repeat upd value nth length]. repeat split; lia.
Qed.

(** C240 is false: an assignment of a string to itself loses the text, and its buffer is
    never freed. *)
Theorem string_self_assign_refuted : forall (zero : bool) (t : list Z), Z.of_nat (length t) < 2 ^ 63 ->
  exists s, run zero [Load 0 t; Assign 0 0; Read 0; Clear 0] (start 1) = Ok (s, [[]; []; []; []]) /\
    vars s = [None] /\ (exists p, nth p (heap s) None <> None) /\
    snd (spec_run [Load 0 t; Assign 0 0; Read 0; Clear 0] [[]]) = [[]; []; t; []].
Proof.
  intros zero t T. cbn [run step].
  pose proof (inv_start zero 1) as I0. cbn [repeat] in I0.
  assert (V : (0 < length (@cons (list Z) [] []))%nat) by (cbn; lia).
  destruct (load_ok zero (start 1) [[]] 0 t I0 V T) as (s & E & I). rewrite E. cbn [obind upd] in *.
  assert (NP : ptr s 0 <> None).
  { unfold load, createBufferIter, setPtr, start in E. cbn in E.
    destruct (render zero _ _ t) as [s1| | |] eqn:R; cbn [obind] in E; try discriminate.
    assert (VS : vars s1 = [None; Some 0%nat]).
    { clear - R. match type of R with render _ ?s0 _ _ = _ => assert (G : vars s0 = [None; Some 0%nat]) by reflexivity; revert R G; generalize s0 end.
      intros s0. revert s0. induction t as [|c t IH]; intros s0 R G; cbn [render] in R; [injection R as <-; exact G|].
      destruct (bget (heap s0) 0) as [b| | |]; cbn [obind] in R; try discriminate.
      destruct (hasItems zero b); [|injection R as <-; exact G].
      destruct (write s0 0 c) as [s2| | |] eqn:W; cbn [obind] in R; try discriminate.
      apply (IH s2 R). unfold write in W. destruct (bget (heap s0) 0); cbn [obind] in W; try discriminate. injection W as <-. exact G. }
    unfold endIter in E.
    assert (W : exists h, (if zero then write s1 0 0 else Ok s1) = Ok (mkState h (vars s1)) \/ (if zero then write s1 0 0 else Ok s1) = Undef).
    { destruct zero; [|exists (heap s1); left; destruct s1; reflexivity]. unfold write. destruct (bget (heap s1) 0) as [b| | |] eqn:B; cbn [obind].
      - eexists; left; reflexivity.
      - unfold bget in B. destruct (nth 0 (heap s1) None); discriminate.
      - exists []; right; reflexivity.
      - unfold bget in B. destruct (nth 0 (heap s1) None); discriminate. }
    destruct W as (h & [W|W]); rewrite W in E; cbn [obind] in E; [|discriminate].
    cbn [heap vars] in E. rewrite VS in E.
    destruct (release h (Some 0%nat)) as [h2| | |]; cbn [obind] in E; try discriminate.
    unfold ptr in E. cbn [vars heap nth upd removelast obind] in E.
    destruct (addRef h2 (Some 0%nat)) as [h3| | |]; cbn [obind release] in E; try discriminate.
    destruct (bget h3 0) as [b3| | |]; cbn [obind] in E; try discriminate.
    destruct (cnt b3) as [|[|k]]; cbn [obind] in E; try discriminate; injection E as <-; unfold ptr; cbn; discriminate. }
  destruct s as [h vr]. pose proof I as (L & H & _ & _). cbn [vars heap length] in L, H.
  destruct vr as [|o [|o' vr]]; cbn [length] in L; try lia. unfold ptr in NP. cbn [vars nth] in NP.
  destruct o as [p|]; [|contradiction].
  unfold assign, ptr. cbn [vars heap nth].
  destruct (addRef_ok h [Some p] (Some p) H) as (h1 & A1 & A2 & A3).
  { intros x X. injection X as <-. cbn [refs]. rewrite is_same. lia. }
  rewrite A1. cbn [obind]. destruct (release_ok _ _ _ A2) as (h2 & B1 & B2 & B3). rewrite B1. cbn [obind Nat.eqb upd].
  unfold read, len, clear, ptr. cbn [vars heap nth obind Z.eqb release upd].
  eexists. split; [reflexivity|]. cbn [vars heap]. split; [reflexivity|]. split; [|reflexivity].
  exists p. destruct (hinv_live h2 [Some p] p B2) as (b & G & _); [cbn [refs]; rewrite is_same; lia|]. rewrite G. discriminate.
Qed.
Print Assumptions string_self_assign_refuted.
Example string_self_assign_holds : exists s, run true [Load 0 [72; 105]; Assign 0 0; Read 0] (start 1) = Ok (s, [[]; []; []]).
Proof. eexists. vm_compute. reflexivity. Qed.

(** C241 is false: after createBuffer(n) on a char string and filling the n characters, the
    string has one character less, and is not closed by a zero. *)
Lemma create_char t : Z.of_nat (length t) < 2 ^ 63 ->
  exists s p c, step true (Create 0 (length t) t) (start 1) = Ok (s, []) /\ ptr s 0 = Some p /\ body (heap s) p = Some (c, t).
Proof.
  intros T. cbn [step]. pose proof (inv_start true 1) as I0. cbn [repeat] in I0.
  assert (V : (0 < length (@cons (list Z) [] []))%nat) by (cbn; lia).
  destruct (create_raw true (start 1) [[]] 0 (length t) t I0 V) as (h & r & C1 & C2 & C3 & C4 & C5). rewrite C1.
  destruct (pokes_ok false t (mkState h (upd (vars (start 1)) 0 (Some r))) [[]] 0 [] (repeat 0 (length t))) as (s & P1 & P2).
  - cbn [app]. apply inv_set; [exact (inv_start false 1)|exact V|rewrite repeat_length; exact T|exact C2| |exact C5].
    cbn [rep]. exists (length t). exact C3.
  - exact V.
  - rewrite repeat_length. reflexivity.
  - intros p P. unfold ptr in P. cbn in P. injection P as <-. exact C4.
  - cbn [length app] in P1, P2. rewrite P1. cbn [obind]. pose proof P2 as (L & H & R & _).
    specialize (R 0%nat V). cbn [upd value nth] in R. destruct (ptr s 0) as [p|] eqn:P; cbn [rep] in R.
    + destruct R as (c & R). exists s, p, c. auto.
    + exfalso. assert (K : forall t s i s', pokes s 0 i t = Ok s' -> vars s' = vars s).
      { clear. induction t as [|x t IH]; intros s i s' E; cbn [pokes] in E; [injection E as <-; reflexivity|].
        destruct (poke s 0 i x) as [s1| | |] eqn:Q; cbn [obind] in E; try discriminate. rewrite (IH _ _ _ E).
        unfold poke in Q. destruct (ptr s 0) as [q|]; [|discriminate]. destruct (bget (heap s) q) as [b| | |]; cbn [obind] in Q; try discriminate.
        destruct (i <? length (txt b))%nat; [|discriminate]. injection Q as <-. reflexivity. }
      pose proof (K _ _ _ _ P1) as W. unfold ptr in P. rewrite W in P. cbn in P. discriminate.
Qed.
Theorem string_create_refuted : forall (t : list Z), Z.of_nat (length t) < 2 ^ 63 -> Forall (fun c => c <> 0) t -> t <> [] ->
  exists s, run true [Create 0 (length t) t; Read 0] (start 1) = Ok (s, [[]; removelast t]) /\
    snd (spec_run [Create 0 (length t) t; Read 0] [[]]) = [[]; t] /\
    (removelast t <> [] -> run true [Create 0 (length t) t; CStr 0] (start 1) = Undef).
Proof.
  intros t T NZ NE. destruct (create_char t T) as (s & p & c & S & P & B). cbn [run]. rewrite S. cbn [obind step].
  destruct (body_get _ _ _ _ B) as (b & G & _ & TX).
  destruct (exists_last NE) as (t' & x & E).
  assert (LN : len true s 0 = Ok (Z.of_nat (length t'))).
  { unfold len, bget. rewrite P, G. cbn [obind]. rewrite TX, E, app_length. cbn [length]. unfold originalLen. f_equal.
    rewrite E, app_length in T. cbn [length] in T. rewrite Z.mod_small; lia. }
  exists s. split; [|split; [reflexivity|]].
  - unfold read. rewrite LN. cbn [obind]. rewrite E, removelast_last. destruct (Z.eqb_spec (Z.of_nat (length t')) 0) as [Q|Q].
    + destruct t'; [reflexivity|cbn [length] in Q; lia].
    + unfold bget. rewrite P, G. cbn [obind]. rewrite TX, E, app_length. cbn [length].
      destruct (Z.ltb_spec (Z.of_nat (length t' + 1)) (Z.of_nat (length t'))); [lia|]. cbn [obind].
      rewrite Nat2Z.id, firstn_app, firstn_all, Nat.sub_diag. cbn [firstn]. rewrite app_nil_r. reflexivity.
  - rewrite E, removelast_last. intros NE'. unfold c_str. rewrite LN. cbn [obind].
    destruct (Z.eqb_spec (Z.of_nat (length t')) 0) as [Q|Q]; [destruct t'; [contradiction|cbn [length] in Q; lia]|].
    unfold bget. rewrite P, G. cbn [obind]. rewrite TX.
    assert (C : forall l, Forall (fun c => c <> 0) l -> cscan l = Undef).
    { clear. intros l N. induction N as [|y l Y N IH]; cbn [cscan]; [reflexivity|]. apply Z.eqb_neq in Y. rewrite Y, IH. reflexivity. }
    rewrite (C t NZ). reflexivity.
Qed.
Print Assumptions string_create_refuted.
Example string_create_holds : Forall (fun c => c <> 0) [72; 105] /\ [72; 105] <> [] /\ removelast [72; 105] <> [].
Proof. split; [|split; discriminate]. repeat constructor; discriminate. Qed.

(** C242 is false: a write into a full iterator is not reported; it takes the place of the
    closing zero, the character becomes no part of the text and the C string has no end. *)
Theorem string_overfull_refuted : forall (c : Z) (x : Z), c <> 0 -> x <> 0 ->
  exists s, pour true (start 1) 0 1 [c; x] = Ok s /\ read true s 0 = Ok [c] /\ c_str true s 0 = Undef.
Proof.
  intros c x C X. unfold pour. cbn. eexists. split; [reflexivity|]. unfold read, c_str, len, ptr. cbn.
  apply Z.eqb_neq in C, X. rewrite C. cbn. rewrite X. cbn. split; reflexivity.
Qed.
Print Assumptions string_overfull_refuted.
Example string_overfull_holds : exists s, pour true (start 1) 0 1 [65] = Ok s /\ c_str true s 0 = Ok [65].
Proof. eexists. split; reflexivity. Qed.

(** C243: strings are compared by the order of texts; so is a string with a literal, by every
    operator but <=. *)
Theorem string_compare : forall (a b t : list Z),
  strCmpCS a b = text_order a b /\
  litEq a (t ++ [0]) = is_eq (text_order a t) /\ litNe a (t ++ [0]) = negb (is_eq (text_order a t)) /\
  litLt a (t ++ [0]) = is_lt (text_order a t) /\ litGt a (t ++ [0]) = is_gt (text_order a t) /\
  litGe a (t ++ [0]) = negb (is_lt (text_order a t)).
Proof.
  intros a b t. unfold litEq, litNe, litLt, litGt, litGe. rewrite makeCStr_literal, !strCmpCS_order. auto 10.
Qed.
Print Assumptions string_compare.
(** the order of texts is a total order whose equality is that of texts *)
Theorem text_order_total : forall (a b c : list Z),
  (text_order a b = Eq <-> a = b) /\ text_order b a = CompOpp (text_order a b) /\
  (text_order a b = Lt -> text_order b c = Lt -> text_order a c = Lt).
Proof.
  intros a b c. split; [|split].
  - revert b. induction a as [|x a IH]; intros [|y b]; cbn [text_order]; try (split; congruence).
    destruct (Z.compare_spec x y) as [->|L|L]; [|split; [discriminate|intros E; injection E; lia]..].
    rewrite IH. split; congruence.
  - revert b. induction a as [|x a IH]; intros [|y b]; cbn [text_order]; try reflexivity.
    rewrite (Z.compare_antisym x y). destruct (x ?= y); cbn [CompOpp]; auto.
  - revert b c. induction a as [|x a IH]; intros [|y b] [|z c]; cbn [text_order]; try congruence; auto.
    destruct (Z.compare_spec x y) as [->|L|L]; intros A B; [| |discriminate].
    + destruct (y ?= z); [exact (IH b c A B)|reflexivity|discriminate].
    + assert (M : y <= z) by (destruct (Z.compare_spec y z); [lia|lia|discriminate]).
      destruct (Z.compare_spec x z); [lia|reflexivity|lia].
Qed.
Print Assumptions text_order_total.
Example string_compare_holds : strCmpCS [97; 98] [97; 99] = Lt /\ strCmpCS [97; 98; 0] [97; 98] = Gt.
Proof. split; reflexivity. Qed.

(** C244 is false: the operator <= of a string and a literal answers as >=, wrong for every
    two texts that differ. *)
Theorem string_literal_le_refuted : forall (a t : list Z), a <> t ->
  litLe a (t ++ [0]) = is_gt (text_order a t).
Proof.
  intros a t N. unfold litLe. rewrite makeCStr_literal, strCmpCS_order.
  pose proof (proj1 (text_order_total a t t)) as E. destruct (text_order a t) eqn:Q; try reflexivity.
  exfalso. apply N, E. reflexivity.
Qed.
Print Assumptions string_literal_le_refuted.
Example string_literal_le_holds : litLe [97] ([98] ++ [0]) = false /\ litLe [98] ([97] ++ [0]) = true.
Proof. split; reflexivity. Qed.

(** C245: without zeros in the first text, the comparison without regard to case is the order
    of the texts in lower case. *)
Theorem string_compare_nocase : forall (a b : list Z), Forall (fun c => c <> 0) a ->
  strCmpCI a b = text_order (map lower a) (map lower b).
Proof. intros a b N. apply strCmpCI_order. exact N. Qed.
Print Assumptions string_compare_nocase.
Example string_compare_nocase_holds : Forall (fun c => c <> 0) [72; 105] /\ strCmpCI [72; 105] [104; 73] = Eq.
Proof. split; [repeat constructor; discriminate | reflexivity]. Qed.

(** C246 is false: what follows a zero is not compared. *)
Theorem string_compare_nocase_zero_refuted : forall (p a b : list Z), length a = length b ->
  strCmpCI (p ++ 0 :: a) (p ++ 0 :: b) = Eq.
Proof.
  intros p a b E. unfold strCmpCI.
  assert (L : length (p ++ 0 :: b) = length (p ++ 0 :: a)) by (rewrite !app_length; cbn [length]; lia).
  rewrite L, Nat.min_id, strncasecmp_zero by exact E. rewrite Nat.eqb_refl. reflexivity.
Qed.
Print Assumptions string_compare_nocase_zero_refuted.
Example string_compare_nocase_zero_holds :
  strCmpCI [120; 0; 97] [120; 0; 98] = Eq /\ text_order (map lower [120; 0; 97]) (map lower [120; 0; 98]) = Lt.
Proof. split; reflexivity. Qed.
