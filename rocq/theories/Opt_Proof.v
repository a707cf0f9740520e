(** Lemmas for Optional<T>: an object belongs to exactly one armed Optional. *)
From Coq Require Import List Arith Lia Bool.
From Verif Require Import Common Opt_Spec Opt_Model.
Import ListNotations.

Definition abs (s : st) : vars := fun o =>
  match opt s o with None => None | Some y => Some (if armed y then match buf y with Some i => live s i | None => None end else None) end.
Definition weight (x : option (option val)) : nat := match x with Some (Some _) => 1 | _ => 0 end.
Definition bound (a : vars) (n : nat) := forall o, n <= o -> weight (a o) = 0.
Record R (s : st) (h : list ev) (a : vars) : Prop := {
  r_own : forall o y, opt s o = Some y -> armed y = true -> exists i v, buf y = Some i /\ live s i = Some v;
  r_inj : forall o q y w i, opt s o = Some y -> opt s q = Some w -> armed y = true -> armed w = true -> buf y = Some i -> buf w = Some i -> o = q;
  r_leak : forall i v, live s i = Some v -> exists o y, opt s o = Some y /\ armed y = true /\ buf y = Some i;
  r_hist : forall i, live s i = alive h i;
  r_fresh : forall i, made h i = true -> i < nxt s;
  r_pair : paired h;
  r_abs : forall o, abs s o = a o;
  r_cnt : forall n, bound a n -> nMk h = nKill h + holding a n }.

Lemma holding_S a n : holding a (S n) = weight (a n) + holding a n.
Proof. reflexivity. Qed.
Lemma holding_ext a n : bound a n -> forall m, n <= m -> holding a m = holding a n.
Proof. intros B m L. induction L; [reflexivity|]. rewrite holding_S, B by lia. exact IHL. Qed.
Lemma holding_out a o x n : n <= o -> holding (aput a o x) n = holding a n.
Proof. induction n as [|n IH]; intros L; [reflexivity|]. rewrite !holding_S, IH by lia. unfold aput. destruct (Nat.eqb_spec n o); [lia|]. reflexivity. Qed.
Lemma holding_put a o x n : o < n -> holding (aput a o x) n + weight (a o) = holding a n + weight x.
Proof.
  induction n as [|n IH]; intros L; [lia|]. rewrite !holding_S. destruct (Nat.eq_dec n o) as [->|N].
  - rewrite holding_out by lia. unfold aput. rewrite Nat.eqb_refl. lia.
  - specialize (IH ltac:(lia)). unfold aput at 1. destruct (Nat.eqb_spec n o); [lia|]. lia.
Qed.
Lemma cnt_put a o x m k d : (forall n, bound a n -> m = k + holding a n) -> d + weight (a o) = weight x -> forall n, bound (aput a o x) n -> d + m = k + holding (aput a o x) n.
Proof.
  intros C D n B. set (N := n + S o). assert (Ba : bound a N).
  { intros q L. specialize (B q). unfold aput in B. destruct (Nat.eqb_spec q o); [unfold N in L; lia|]. apply B. unfold N in L. lia. }
  specialize (C N Ba). rewrite <- (holding_ext _ _ B N) by (unfold N; lia). pose proof (holding_put a o x N ltac:(unfold N; lia)). lia.
Qed.
Lemma cnt_put' a o x m k d : (forall n, bound a n -> m = k + holding a n) -> d + weight x = weight (a o) -> forall n, bound (aput a o x) n -> m = d + k + holding (aput a o x) n.
Proof.
  intros C D n B. set (N := n + S o). assert (Ba : bound a N).
  { intros q L. specialize (B q). unfold aput in B. destruct (Nat.eqb_spec q o); [unfold N in L; lia|]. apply B. unfold N in L. lia. }
  specialize (C N Ba). rewrite <- (holding_ext _ _ B N) by (unfold N; lia). pose proof (holding_put a o x N ltac:(unfold N; lia)). lia.
Qed.

Definition idle (x : option slot) := match x with Some y => armed y = false | None => True end.
Definition absx (x : option slot) : option (option val) := match x with None => None | Some _ => Some None end.
Lemma weight_absx x : weight (absx x) = 0. Proof. now destruct x. Qed.

(** a variable that holds nothing comes, goes or stays nil *)
Lemma put_ok s h a o x : R s h a -> idle (opt s o) -> idle x -> R (put s o x) h (aput a o (absx x)).
Proof.
  intros [H1 H2 H3 H4 H5 H6 H7 H8] I J. constructor; cbn [put opt live nxt]; auto.
  - intros q y. destruct (Nat.eqb_spec q o) as [->|N]; [intros -> A; cbn in J; congruence|apply H1].
  - intros q r y w i. destruct (Nat.eqb_spec q o) as [->|N]; destruct (Nat.eqb_spec r o) as [->|M]; auto; try (intros -> ? A; cbn in J; congruence); try (intros ? -> ? A; cbn in J; congruence). now apply H2.
  - intros i v L. destruct (H3 i v L) as (q & y & E & A & B). exists q, y. destruct (Nat.eqb_spec q o) as [->|N]; auto. rewrite E in I. cbn in I. congruence.
  - intros q. unfold abs, aput. cbn [put opt live]. destruct (Nat.eqb_spec q o) as [->|N]; [|apply H7]. destruct x as [y|]; cbn in *; [now rewrite J|reflexivity].
  - intros n B. apply (cnt_put a o (absx x) (nMk h) (nKill h) 0); auto. rewrite weight_absx. rewrite <- H7. unfold abs. destruct (opt s o) as [y|]; [|reflexivity]. cbn in I. now rewrite I.
Qed.
(** the object of a variable is destroyed and the variable becomes nil or goes *)
Lemma kill_ok s h a o y x : R s h a -> opt s o = Some y -> armed y = true -> idle x ->
  exists i, buf y = Some i /\ live s i <> None /\ R (mkSt (nxt s) (fun j => if Nat.eqb j i then None else live s j) (fun q => if Nat.eqb q o then x else opt s q)) (EKill i :: h) (aput a o (absx x)).
Proof.
  intros [H1 H2 H3 H4 H5 H6 H7 H8] E A J. destruct (H1 o y E A) as (i & v & B & L). exists i. split; [exact B|]. split; [congruence|]. constructor; cbn [opt live nxt].
  - intros q w. destruct (Nat.eqb_spec q o) as [->|N]; [intros -> Q; cbn in J; congruence|]. intros Eq Aw. destruct (H1 q w Eq Aw) as (j & u & B2 & L2). exists j, u. split; auto.
    destruct (Nat.eqb_spec j i) as [->|M]; auto. destruct N. exact (H2 q o w y i Eq E Aw A B2 B).
  - intros q r z w j. destruct (Nat.eqb_spec q o) as [->|N]; destruct (Nat.eqb_spec r o) as [->|M]; auto; try (intros -> ? Q; cbn in J; congruence); try (intros ? -> ? Q; cbn in J; congruence). now apply H2.
  - intros j u. destruct (Nat.eqb_spec j i) as [->|M]; [discriminate|]. intros L2. destruct (H3 j u L2) as (q & w & Eq & Aw & Bw). exists q, w. destruct (Nat.eqb_spec q o) as [->|N]; auto. congruence.
  - intros j. cbn [alive]. rewrite (Nat.eqb_sym i j). destruct (Nat.eqb j i); auto.
  - intros j. cbn [made]. apply H5.
  - cbn [paired]. split; auto. rewrite <- H4. congruence.
  - intros q. unfold abs, aput. cbn [opt live]. destruct (Nat.eqb_spec q o) as [->|N].
    + destruct x as [w|]; cbn in *; [now rewrite J|reflexivity].
    + rewrite <- H7. unfold abs. destruct (opt s q) as [w|] eqn:Eq; [|reflexivity]. destruct (armed w) eqn:Aw; [|reflexivity]. destruct (H1 q w Eq Aw) as (j & u & B2 & L2). rewrite B2.
      destruct (Nat.eqb_spec j i) as [->|M]; auto. destruct N. exact (H2 q o w y i Eq E Aw A B2 B).
  - intros n Bn. cbn [nMk nKill]. apply (cnt_put' a o (absx x) (nMk h) (nKill h) 1); auto. rewrite weight_absx, <- H7. unfold abs. now rewrite E, A, B, L.
Qed.
Lemma alive_made h i v : alive h i = Some v -> made h i = true.
Proof.
  induction h as [|[j u|j] h IH]; cbn; [discriminate| |].
  - destruct (Nat.eqb j i); cbn; auto.
  - destruct (Nat.eqb j i); [discriminate|auto].
Qed.
Lemma build_ok s h a o v : R s h a -> idle (opt s o) -> R (snd (build s o v)) (fst (build s o v) ++ h) (aput a o (Some (Some v))).
Proof.
  intros [H1 H2 H3 H4 H5 H6 H7 H8] I. assert (F : forall j u, live s j = Some u -> j <> nxt s).
  { intros j u L. rewrite H4 in L. apply alive_made, H5 in L. lia. }
  constructor; cbn [build put fst snd app opt live nxt].
  - intros q w. destruct (Nat.eqb_spec q o) as [->|N].
    + intros Q A. inversion Q; subst. cbn. exists (nxt s), v. now rewrite Nat.eqb_refl.
    + intros Q A. destruct (H1 q w Q A) as (j & u & B & L). exists j, u. split; auto. destruct (Nat.eqb_spec j (nxt s)); auto. exfalso; exact (F _ _ L ltac:(assumption)).
  - assert (Z : forall q w, q <> o -> opt s q = Some w -> armed w = true -> buf w = Some (nxt s) -> False).
    { intros q w N E A B. destruct (H1 q w E A) as (j & u & B2 & L). apply F in L. congruence. }
    intros q r z w j. destruct (Nat.eqb_spec q o) as [->|N]; destruct (Nat.eqb_spec r o) as [->|M]; auto.
    + intros Q E A Aw B Bw. inversion Q; subst. cbn in B. inversion B; subst. destruct (Z r w M E Aw Bw).
    + intros E Q A Aw B Bw. inversion Q; subst. cbn in Bw. inversion Bw; subst. destruct (Z q z N E A B).
    + now apply H2.
  - intros j u. destruct (Nat.eqb_spec j (nxt s)) as [->|M].
    + intros _. exists o, (mkSl (Some (nxt s)) true). now rewrite Nat.eqb_refl.
    + intros L. destruct (H3 j u L) as (q & w & E & A & B). exists q, w. destruct (Nat.eqb_spec q o) as [->|N]; auto. rewrite E in I. cbn in I. congruence.
  - intros j. cbn [alive]. rewrite (Nat.eqb_sym (nxt s) j). destruct (Nat.eqb j (nxt s)); auto.
  - intros j. cbn [made]. destruct (Nat.eqb_spec (nxt s) j); [lia|]. cbn. intros Q. apply H5 in Q. lia.
  - cbn [paired]. split; auto. destruct (made h (nxt s)) eqn:Q; auto. apply H5 in Q. lia.
  - intros q. unfold abs, aput. cbn [build put snd opt live nxt]. destruct (Nat.eqb_spec q o) as [->|N].
    + cbn. rewrite ?Nat.eqb_refl. cbn. now rewrite ?Nat.eqb_refl.
    + rewrite <- H7. unfold abs. destruct (opt s q) as [w|] eqn:Eq; [|reflexivity]. destruct (armed w) eqn:Aw; [|reflexivity]. destruct (H1 q w Eq Aw) as (j & u & B2 & L2). rewrite B2.
      destruct (Nat.eqb_spec j (nxt s)) as [->|M]; auto. exfalso; exact (F _ _ L2 eq_refl).
  - intros n Bn. cbn [nMk nKill]. apply (cnt_put a o (Some (Some v)) (nMk h) (nKill h) 1); auto. rewrite <- H7. unfold abs. destruct (opt s o) as [y|]; [|reflexivity]. cbn in I. now rewrite I.
Qed.

Lemma read_ok s h a o y : R s h a -> opt s o = Some y -> armed y = true -> exists v, read s y = Ok v /\ a o = Some (Some v).
Proof. intros I E A. destruct (r_own _ _ _ I o y E A) as (i & v & B & L). exists v. unfold read. rewrite B, L. split; auto. rewrite <- (r_abs _ _ _ I). unfold abs. now rewrite E, A, B, L. Qed.
Lemma abs_none s h a o : R s h a -> opt s o = None -> a o = None.
Proof. intros I E. rewrite <- (r_abs _ _ _ I). unfold abs. now rewrite E. Qed.
Lemma abs_idle s h a o y : R s h a -> opt s o = Some y -> armed y = false -> a o = Some None.
Proof. intros I E A. rewrite <- (r_abs _ _ _ I). unfold abs. now rewrite E, A. Qed.
Lemma load_abs s h a x v : R s h a -> asrc a x = inl v -> load s x = Ok v.
Proof.
  intros I. destruct x as [u|p|p]; cbn [asrc load]; [congruence| |].
  all: destruct (opt s p) as [y|] eqn:E; [|rewrite (abs_none _ _ _ _ I E); discriminate].
  all: destruct (armed y) eqn:A; [destruct (read_ok _ _ _ _ _ I E A) as (w & -> & ->); cbn; intros Q; inversion Q; reflexivity|rewrite (abs_idle _ _ _ _ _ I E A); discriminate].
Qed.
Lemma refer_ok s h a x : R s h a -> match refer s x with Some r => asrc a x = inr r | None => exists v, asrc a x = inl v end.
Proof.
  intros I. destruct x as [u|p|p]; cbn [asrc refer]; [eauto| |].
  all: destruct (opt s p) as [y|] eqn:E; [|now rewrite (abs_none _ _ _ _ I E)].
  all: destruct (armed y) eqn:A; [destruct (read_ok _ _ _ _ _ I E A) as (w & _ & ->); eauto|now rewrite (abs_idle _ _ _ _ _ I E A)].
Qed.

Definition good (h : list ev) (x : outcome ret) (z : res * vars) : Prop :=
  exists r e s, x = Ok (r, e, s) /\ fst z = r /\ R s (e ++ h) (snd z).
Lemma R_ext s h a b : R s h a -> (forall o, a o = b o) -> R s h b.
Proof.
  intros [H1 H2 H3 H4 H5 H6 H7 H8] E. constructor; auto.
  - intros o. now rewrite H7.
  - intros n B. assert (X : forall m, holding b m = holding a m) by (induction m; cbn; rewrite ?E, ?IHm; reflexivity). rewrite X. apply H8. intros o L. rewrite E. now apply B.
Qed.
Lemma aput_aput a o x y q : aput (aput a o x) o y q = aput a o y q.
Proof. unfold aput. destruct (Nat.eqb q o); auto. Qed.
Lemma aput_same a o x q : a o = x -> aput a o x q = a q.
Proof. unfold aput. intros <-. destruct (Nat.eqb_spec q o) as [->|]; auto. Qed.

(** the first half of an assignment *)
Lemma clear_ok s h a o y : R s h a -> opt s o = Some y ->
  exists e s', (if armed y then kill (put s o (Some (mkSl (buf y) false))) y else Ok ([], s)) = Ok (e, s') /\ R s' (e ++ h) (aput a o (Some None)) /\ idle (opt s' o) /\ opt s' o <> None.
Proof.
  intros I E. destruct (armed y) eqn:A.
  - destruct (kill_ok s h a o y (Some (mkSl (buf y) false)) I E A eq_refl) as (i & B & L & I2). unfold kill. rewrite B. cbn [put live nxt opt]. rewrite B in I2. destruct (live s i) eqn:Q; [|congruence].
    eexists _, _. split; [reflexivity|]. split; [exact I2|]. cbn. rewrite Nat.eqb_refl. now cbn.
  - exists [], s. split; [reflexivity|]. split; [|rewrite E; now cbn]. cbn [app]. apply (R_ext _ _ _ _ I). intros q. symmetry. apply aput_same. exact (abs_idle _ _ _ _ _ I E A).
Qed.
Lemma asrc_put a o x y v : asrc a x = inl v -> (forall p, x = SValOf p \/ x = SPartOf p -> p <> o) -> asrc (aput a o y) x = inl v.
Proof. destruct x as [u|p|p]; cbn; auto; intros Q H; unfold aput; destruct (Nat.eqb_spec p o) as [->|]; auto; exfalso; apply (H o); auto. Qed.
Lemma replace_ok s h a o y x t v : R s h a -> opt s o = Some y -> asrc a x = inl v -> (forall p, x = SValOf p \/ x = SPartOf p -> p <> o) ->
  good h (replace s o y x t) (if t then (REx, aput a o (Some None)) else (RUnit, aput a o (Some (Some v)))).
Proof.
  intros I E X D. unfold replace. destruct (clear_ok s h a o y I E) as (e & s' & -> & I2 & J & K). cbn [obind fst snd].
  rewrite (load_abs _ _ _ _ v I2) by (now apply asrc_put). cbn [obind]. destruct t.
  - exists REx, e, s'. auto.
  - pose proof (build_ok s' _ _ o v I2 J) as I3. eexists _, _, _. split; [reflexivity|]. split; [reflexivity|]. rewrite <- app_assoc. apply (R_ext _ _ _ _ I3). intros q. apply aput_aput.
Qed.
Lemma step_ok s h a p : R s h a -> selfRead p = false -> good h (step s p) (astep a p).
Proof.
  intros I D. assert (Nop : forall r, good h (Ok (r, [], s)) (r, a)) by (intros r; exists r, [], s; auto).
  assert (NV : forall o x t, good h (newVal s o x t) (anew a o x t)).
  { intros o x t. unfold newVal, anew. destruct (opt s o) as [y|] eqn:E.
    - rewrite <- (r_abs _ _ _ I). unfold abs. rewrite E. apply Nop.
    - rewrite (abs_none _ _ _ _ I E). pose proof (refer_ok _ _ _ x I) as F. destruct (refer s x); [rewrite F; apply Nop|]. destruct F as (v & F). rewrite (load_abs _ _ _ _ _ I F), F. cbn [obind].
      destruct t; [apply Nop|]. eexists _, _, _. split; [reflexivity|]. split; [reflexivity|]. apply build_ok; auto. now rewrite E. }
  assert (NS : forall o x t, (forall q, x = SValOf q \/ x = SPartOf q -> q <> o) -> good h (setC s o x t) (aset a o x t)).
  { intros o x t X. unfold setC, aset. destruct (opt s o) as [y|] eqn:E; [|rewrite (abs_none _ _ _ _ I E); apply Nop].
    assert (Z : exists w, a o = Some w) by (rewrite <- (r_abs _ _ _ I); unfold abs; rewrite E; eauto). destruct Z as (w & ->).
    pose proof (refer_ok _ _ _ x I) as F. destruct (refer s x); [rewrite F; apply Nop|]. destruct F as (v & F). rewrite F. now apply replace_ok. }
  destruct p as [o|o x t|o x t|o p t|o p t|o|o|o x t|o x t|o p t|o|o]; cbn [step astep].
  - destruct (opt s o) as [y|] eqn:E.
    + rewrite <- (r_abs _ _ _ I). unfold abs. rewrite E. apply Nop.
    + rewrite (abs_none _ _ _ _ I E). eexists _, _, _. split; [reflexivity|]. split; [reflexivity|]. apply (put_ok s h a o (Some (mkSl None false))); auto; now rewrite E.
  - apply NV.
  - apply NV.
  - unfold newCopy. destruct (opt s o) as [y|] eqn:E.
    + assert (Z : exists w, a o = Some w) by (rewrite <- (r_abs _ _ _ I); unfold abs; rewrite E; eauto). destruct Z as (w & ->). apply Nop.
    + rewrite (abs_none _ _ _ _ I E). destruct (opt s p) as [y|] eqn:Ep; [|rewrite (abs_none _ _ _ _ I Ep); apply Nop].
      destruct (armed y) eqn:A.
      * destruct (read_ok _ _ _ _ _ I Ep A) as (v & -> & ->). cbn [obind]. destruct t; [apply Nop|]. eexists _, _, _. split; [reflexivity|]. split; [reflexivity|]. apply build_ok; auto. now rewrite E.
      * rewrite (abs_idle _ _ _ _ _ I Ep A). eexists _, _, _. split; [reflexivity|]. split; [reflexivity|]. apply (put_ok s h a o (Some (mkSl None false))); auto; now rewrite E.
  - unfold newMove. destruct (opt s o) as [y|] eqn:E.
    + assert (Z : exists w, a o = Some w) by (rewrite <- (r_abs _ _ _ I); unfold abs; rewrite E; eauto). destruct Z as (w & ->). apply Nop.
    + rewrite (abs_none _ _ _ _ I E). destruct (opt s p) as [y|] eqn:Ep; [|rewrite (abs_none _ _ _ _ I Ep); apply Nop].
      assert (N : p <> o) by congruence.
      destruct (armed y) eqn:A.
      * destruct (read_ok _ _ _ _ _ I Ep A) as (v & -> & ->). cbn [obind]. destruct t; [apply Nop|]. pose proof (build_ok s h a o v I ltac:(now rewrite E)) as I2.
        assert (Ep2 : opt (snd (build s o v)) p = Some y) by (cbn; destruct (Nat.eqb_spec p o); congruence).
        unfold setNil. rewrite Ep2, A. destruct (clear_ok _ _ _ p y I2 Ep2) as (e & s' & Q & I3 & _). rewrite A in Q. rewrite Q. cbn [obind fst snd].
        eexists _, _, _. split; [reflexivity|]. split; [reflexivity|]. rewrite <- app_assoc. exact I3.
      * rewrite (abs_idle _ _ _ _ _ I Ep A). unfold setNil. cbn [put opt]. destruct (Nat.eqb_spec p o); [congruence|]. rewrite Ep, A. cbn [obind fst snd].
        eexists _, _, _. split; [reflexivity|]. split; [reflexivity|]. apply (put_ok s h a o (Some (mkSl None false))); auto; now rewrite E.
  - unfold del. destruct (opt s o) as [y|] eqn:E; [|rewrite (abs_none _ _ _ _ I E); apply Nop].
    assert (Z : exists w, a o = Some w) by (rewrite <- (r_abs _ _ _ I); unfold abs; rewrite E; eauto). destruct Z as (w & ->).
    destruct (armed y) eqn:A.
    + destruct (kill_ok s h a o y None I E A Logic.I) as (i & B & L & I2). unfold kill. rewrite B. destruct (live s i); [|congruence]. cbn [obind fst snd put nxt live opt]. eexists _, _, _. split; [reflexivity|]. split; [reflexivity|]. exact I2.
    + eexists _, _, _. split; [reflexivity|]. split; [reflexivity|]. apply (put_ok s h a o None); auto; try exact Logic.I; now rewrite E.
  - unfold setNil. destruct (opt s o) as [y|] eqn:E; [|rewrite (abs_none _ _ _ _ I E); apply Nop].
    assert (Z : exists w, a o = Some w) by (rewrite <- (r_abs _ _ _ I); unfold abs; rewrite E; eauto). destruct Z as (w & ->).
    destruct (clear_ok s h a o y I E) as (e & s' & Q & I2 & _). destruct (armed y) eqn:A.
    + rewrite Q. cbn [obind fst snd]. exists RUnit, e, s'. auto.
    + inversion Q; subst. exists RUnit, [], s'. auto.
  - unfold setVal. destruct x as [u|p|p].
    + apply NS. intros q [Q|Q]; discriminate Q.
    + destruct (Nat.eqb_spec p o) as [->|N].
      * destruct (opt s o) as [y|] eqn:E; [|rewrite (abs_none _ _ _ _ I E); apply Nop]. cbn [refer]. rewrite E. destruct (armed y) eqn:A.
        -- destruct (read_ok _ _ _ _ _ I E A) as (v & _ & ->). apply Nop.
        -- rewrite (abs_idle _ _ _ _ _ I E A). apply Nop.
      * apply NS. intros q [Q|Q]; inversion Q; subst; auto.
    + apply NS. intros q [Q|Q]; inversion Q; subst. cbn in D. apply Nat.eqb_neq in D. auto.
  - apply NS. destruct x as [u|p|p]; intros q [Q|Q]; inversion Q; subst; cbn in D; apply Nat.eqb_neq in D; auto.
  - unfold copy. destruct (opt s o) as [y|] eqn:E; [|rewrite (abs_none _ _ _ _ I E); apply Nop].
    assert (Z : exists w, a o = Some w) by (rewrite <- (r_abs _ _ _ I); unfold abs; rewrite E; eauto). destruct Z as (w & ->).
    destruct (opt s p) as [z|] eqn:Ep; [|rewrite (abs_none _ _ _ _ I Ep); apply Nop].
    destruct (clear_ok s h a o y I E) as (e & s' & Q & I2 & J & _).
    destruct (Nat.eqb_spec o p) as [->|N].
    + assert (Z : exists w, a p = Some w) by (rewrite <- (r_abs _ _ _ I); unfold abs; rewrite Ep; eauto). destruct Z as (u & ->). apply Nop.
    + rewrite Q. cbn [obind fst snd].
      assert (P : opt s' p = Some z).
      { destruct (armed y); [|inversion Q; subst; exact Ep]. unfold kill in Q. destruct (buf y); [|discriminate Q]. cbn in Q. destruct (live s n); [|discriminate Q]. inversion Q; subst. cbn. destruct (Nat.eqb_spec p o); congruence. }
      destruct (armed z) eqn:A.
      * destruct (read_ok _ _ _ _ _ I2 P A) as (v & -> & X). cbn [obind]. unfold aput in X. destruct (Nat.eqb_spec p o); [congruence|]. rewrite X. destruct t.
        -- exists REx, e, s'. auto.
        -- pose proof (build_ok s' _ _ o v I2 J) as I3. eexists _, _, _. split; [reflexivity|]. split; [reflexivity|]. rewrite <- app_assoc. apply (R_ext _ _ _ _ I3). intros q. apply aput_aput.
      * rewrite (abs_idle _ _ _ _ _ I Ep A). exists RUnit, e, s'. auto.
  - unfold value. destruct (opt s o) as [y|] eqn:E; [|rewrite (abs_none _ _ _ _ I E); apply Nop]. destruct (armed y) eqn:A.
    + destruct (read_ok _ _ _ _ _ I E A) as (v & -> & ->). apply Nop.
    + rewrite (abs_idle _ _ _ _ _ I E A). apply Nop.
  - unfold isNil. destruct (opt s o) as [y|] eqn:E; [|rewrite (abs_none _ _ _ _ I E); apply Nop]. destruct (armed y) eqn:A.
    + destruct (read_ok _ _ _ _ _ I E A) as (v & _ & ->). apply Nop.
    + rewrite (abs_idle _ _ _ _ _ I E A). apply Nop.
Qed.
Lemma init_R : R init [] (fun _ => None).
Proof. constructor; cbn; try discriminate; auto. induction n; cbn; auto. intros B. apply IHn. intros o _. reflexivity. Qed.
Lemma runs_ok l : forall s h a, R s h a -> Forall (fun p => selfRead p = false) l -> exists rs e s', runs s l = Ok (rs, e, s') /\ fst (aruns a l) = rs /\ R s' (e ++ h) (snd (aruns a l)).
Proof.
  induction l as [|p l IH]; intros s h a I F; cbn [runs aruns].
  - exists [], [], s. auto.
  - inversion F; subst. destruct (step_ok s h a p I H1) as (r & e & s' & -> & Er & I2). cbn [obind fst snd].
    destruct (IH s' _ _ I2 H2) as (rs & e2 & s2 & -> & Es & I3). cbn [obind fst snd]. eexists _, _, _. split; [reflexivity|]. rewrite Er, Es. split; [reflexivity|]. rewrite <- app_assoc. exact I3.
Qed.
