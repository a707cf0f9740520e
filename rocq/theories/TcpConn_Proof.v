From Verif Require Import Common TcpConn_Spec TcpConn_Model.
From Coq Require Import Lia.
Open Scope N_scope.

Definition isE (w : wpc) : nat := match w with WExec => 1 | _ => 0 end%nat.
Fixpoint nExec (l : list wpc) : nat := match l with [] => 0 | w :: r => isE w + nExec r end%nat.
Definition nJ (l : list job) : nat := length (filter (fun j => match j with JWake => true | _ => false end) l).
Definition nR (l : list rpc) : nat := length (filter (fun j => match j with RUser => true | _ => false end) l).
Definition okr (b : bool) (c : cmd) (r : N) : Prop :=
  match c with
  | CRead => r = 0 \/ r = 1
  | CWrite => r = 0 \/ r = 2
  | CReadWrite => r = 0 \/ r = 1 \/ r = 2 \/ (r = 3 /\ b = false)
  | _ => False
  end.
Definition mask (c : cmd) (m : N) : Prop := match c with CRead => m = 1 | CWrite => m = 2 | CReadWrite => m = 3 | _ => False end.

(** who holds the connection *)
Inductive tok (b : bool) (h : list ev) : list job -> list rpc -> nat -> option N -> lpc -> bool -> bool -> N -> Prop :=
| TAcc w : proto h = Some PIn -> w = 0 \/ w = 2 -> tok b h [] [] 0 None LIdle true false w
| TArm w c m : proto h = Some (PWait c) -> mask c m -> w = 0 \/ w = 2 -> tok b h [] [] 0 (Some m) LIdle false false w
| TGot w c r : proto h = Some (PWait c) -> okr b c r -> w = 0 \/ w = 2 -> tok b h [] [] 0 None (LGot r) false false w
| TPass w c r : proto h = Some (PWait c) -> okr b c r -> w = 0 \/ w = 2 -> tok b h [] [] 0 None (LPassed r) false false w
| TJob w c e : proto h = Some (PWait c) -> okr b c e -> w = 0 \/ w = 2 -> tok b h [JEv e] [] 0 None LIdle false false w
| TJw w : proto h = Some (PWait CWake) -> w = 0 \/ w = 2 -> tok b h [JWake] [] 0 None LIdle false false w
| TIn w : proto h = Some PIn -> w = 0 \/ w = 2 -> tok b h [] [RIn] 0 None LIdle false false w
| TCas1 w : proto h = Some (PWait CWake) -> w = 0 \/ w = 2 -> tok b h [] [RCas1] 0 None LIdle false false w
| TCas2 : proto h = Some (PWait CWake) -> tok b h [] [RCas2 2] 0 None LIdle false false 2
| TUser w : proto h = Some (PWait CWake) -> w = 0 \/ w = 2 -> tok b h [] [RUser] 0 None LIdle false false w
| TReuse w c d : proto h = Some (PWait d) -> c = d \/ c = CRemove -> c <> CWake -> (b = true -> lastOwn h = Some (ERet c)) -> w = 0 \/ w = 2 ->
    tok b h [] [RReuse c] 0 None LIdle false false w
| TExec w : proto h = Some (PWait CWake) -> w = 0 \/ w = 2 -> tok b h [] [] 1 None LIdle false false w
| TSleep : proto h = Some (PWait CWake) -> tok b h [] [] 0 None LIdle false false 1
| TDead w : proto h = Some PGone -> tok b h [] [] 0 None LIdle false true w.

Definition wOk (h : list ev) (o : option nat) (w : wpc) : Prop :=
  match w with
  | WSet r => In (EWake r) h
  | WCas1 r => In (EWake r) h /\ o <> None
  | WCas2 r v => In (EWake r) h /\ o <> None /\ v = 1
  | WExec => o <> None
  end.
Definition b2 (w : N) : nat := if w =? 2 then 1%nat else 0%nat.

Record Inv (b : bool) (s : st) (h : list ev) : Prop := {
  i_tok : tok b h (jobs s) (runs s) (nExec (wak s)) (armed s) (lis s) (acc s) (dead s) (ws s);
  i_cnt : (nUser h + b2 (ws s) + nJ (jobs s) + nR (runs s) + length (wak s) <= nWake h)%nat;
  i_pend : pending h = true -> ws s = 2 \/ jobs s = [JWake] \/ runs s = [RUser];
  i_rsn : match rsn s with Some r => In (EWake r) h | None => ws s <> 2 /\ nJ (jobs s) = 0%nat /\ nR (runs s) = 0%nat end;
  i_wak : forall w, In w (wak s) -> wOk h (rsn s) w;
  i_reasons : reasons h;
  i_rem : b = true -> removals h;
  i_shut : shut s = false /\ stp s = SIdle }.

Lemma nExec_app l w : nExec (l ++ [w]) = (nExec l + isE w)%nat.
Proof. induction l as [|x l IH]; cbn [app nExec]; lia. Qed.
Lemma nExec_upd l : forall i x y, nth_error l i = Some x -> (nExec (upd l i y) + isE x = nExec l + isE y)%nat.
Proof.
  induction l as [|z l IH]; intros [|i] x y Q; cbn [nth_error] in Q; try discriminate Q.
  - injection Q as ->. cbn. lia.
  - specialize (IH i x y Q). change (upd (z :: l) (S i) y) with (z :: upd l i y). cbn [nExec]. lia.
Qed.
Lemma drop_cons {A} (z : A) l i : drop (z :: l) (S i) = z :: drop l i.
Proof. reflexivity. Qed.
Lemma nExec_drop l : forall i x, nth_error l i = Some x -> (nExec (drop l i) + isE x = nExec l)%nat.
Proof.
  induction l as [|z l IH]; intros [|i] x Q; cbn [nth_error] in Q; try discriminate Q.
  - injection Q as ->. cbn. lia.
  - specialize (IH i x Q). rewrite drop_cons. cbn [nExec]. lia.
Qed.
Lemma length_drop {A} (l : list A) : forall i x, nth_error l i = Some x -> (S (length (drop l i)) = length l)%nat.
Proof.
  induction l as [|z l IH]; intros [|i] x Q; cbn [nth_error] in Q; try discriminate Q.
  - reflexivity.
  - specialize (IH i x Q). rewrite drop_cons. cbn [length]. lia.
Qed.
Lemma In_drop {A} (l : list A) : forall i x, In x (drop l i) -> In x l.
Proof.
  intros i x Q. unfold drop in Q. apply in_app_or in Q. destruct Q as [Q|Q].
  - rewrite <- (firstn_skipn i l). apply in_or_app. now left.
  - rewrite <- (firstn_skipn (S i) l). apply in_or_app. now right.
Qed.
Lemma In_upd {A} (l : list A) : forall i x y, In x (upd l i y) -> x = y \/ In x l.
Proof.
  induction l as [|z l IH]; intros i x y Q; [destruct i; cbn in Q; contradiction|].
  destruct i as [|i].
  - cbn in Q. destruct Q as [Q|Q]; [left; congruence|right; now right].
  - change (upd (z :: l) (S i) y) with (z :: upd l i y) in Q. destruct Q as [Q|Q]; [right; now left|]. destruct (IH i x y Q) as [E|E]; [now left|right; now right].
Qed.
Lemma nth1 {A} (a x : A) i : nth_error [a] i = Some x -> i = 0%nat /\ x = a.
Proof. destruct i as [|[|i]]; cbn; intros Q; try discriminate Q. split; congruence. Qed.

Lemma wOk_more h h' o w : (forall e, In e h -> In e h') -> wOk h o w -> wOk h' o w.
Proof. intros I. destruct w; cbn; intuition. Qed.
Lemma wOk_some h o r w : wOk h o w -> wOk h (Some r) w.
Proof. destruct w; cbn; intuition; discriminate. Qed.

Lemma init_ok b : Inv b init [].
Proof.
  constructor; cbn; auto; try discriminate; try lia; try contradiction.
  - constructor; auto.
Qed.

Definition fine (b : bool) (l : lab) : Prop :=
  match l with LStop | LAccept CWake => False | LFire f => b = true -> N.land f 3 <> 3 | _ => True end.

Ltac cs := cbn -[N.land N.eqb] in *.
Ltac rsn_ := match goal with |- match ?r with Some _ => _ | None => _ end => destruct r; cs; intuition end.
Ltac wk_ := match goal with Hw : forall w, In w _ -> wOk _ _ w |- forall w, In w _ -> wOk _ _ w =>
  intros; eapply wOk_more; [|eapply Hw; eauto]; cs; intuition end.
Ltac ne_ := match goal with E : _ = nExec _ |- tok _ _ _ _ _ _ _ _ _ _ => rewrite <- ?E end.
Ltac pr_ := cs; repeat match goal with E : proto _ = _ |- _ => rewrite E end; cs; auto.
Ltac tk_ := ne_; econstructor; pr_.
Ltac pd_ := match goal with Hp : pending ?h = true -> _ |- pending ?h = true -> _ =>
  let Q := fresh in let X := fresh in intros Q; destruct (Hp Q) as [X|[X|X]]; first [discriminate X | auto] end.
Ltac ev_ := repeat match goal with |- context [?a =? ?b] => let v := eval vm_compute in (a =? b) in
  match v with true => change (a =? b) with true | false => change (a =? b) with false end end; cs.
Ltac lb_ := change (b2 0) with 0%nat in *; change (b2 1) with 0%nat in *; change (b2 2) with 1%nat in *; lia.
Ltac go := eexists; split; [reflexivity|]; constructor; cs; auto; try rsn_; try wk_; try pd_; try lb_.
Ltac open H := let H1 := fresh "S" in let H2 := fresh "S" in let Ht := fresh "Ht" in
  destruct H as [Ht Hc Hp Hr Hw Hs Hm [H1 H2]]; cs; inversion Ht; subst; clear Ht; cs.

Lemma same_ok b s h : Inv b s h -> exists x, Ok ([], s) = Ok x /\ Inv b (snd x) (fst x ++ h).
Proof. intros H. eexists. split; [reflexivity|exact H]. Qed.

Lemma accept_ok b s h c : Inv b s h -> c <> CWake -> exists x, accept s c = Ok x /\ Inv b (snd x) (fst x ++ h).
Proof.
  intros H F. unfold accept. destruct (acc s) eqn:A; [|apply same_ok; exact H].
  destruct s as [w r j ru wk ar li ac de sh sp]. cs. subst ac. open H.
  destruct c; try contradiction; go; try (tk_; reflexivity); try tk_.
Qed.
Lemma fire_ok b s h f : Inv b s h -> (b = true -> N.land f 3 <> 3) -> exists x, fire s f = Ok x /\ Inv b (snd x) (fst x ++ h).
Proof.
  intros H F. unfold fire. destruct (armed s) as [m|] eqn:A; [|apply same_ok; exact H]. destruct (lis s) eqn:L; [|apply same_ok; exact H..].
  destruct s as [w r j ru wk ar li ac de sh sp]. cs. subst ar li. open H. go.
  ne_. apply (TGot b h w c); auto.
  assert (B : N.land f 3 < 2 ^ 2) by (change 3 with (N.ones 2); rewrite N.land_ones; apply N.mod_lt; discriminate).
  assert (B1 : N.land f 1 < 2 ^ 1) by (change 1 with (N.ones 1) at 1; rewrite N.land_ones; apply N.mod_lt; discriminate).
  assert (B2 : N.land f 2 = 0 \/ N.land f 2 = 2).
  { assert (E : N.land f 2 = if N.testbit f 1 then 2 else 0).
    { apply N.bits_inj. intros i. rewrite N.land_spec. change 2 with (2 ^ 1) at 1. rewrite N.pow2_bits_eqb. destruct (N.eqb_spec 1 i) as [E|E].
      - subst i. destruct (N.testbit f 1); reflexivity.
      - rewrite Bool.andb_false_r. destruct (N.testbit f 1); [|now rewrite N.bits_0]. change 2 with (2 ^ 1). rewrite N.pow2_bits_eqb. symmetry. apply N.eqb_neq. exact E. }
    destruct (N.testbit f 1); auto. }
  change (2 ^ 2) with 4 in B. change (2 ^ 1) with 2 in B1.
  destruct c; cs; try contradiction; subst m; try lia; auto.
Qed.
Lemma check_ok b s h : Inv b s h -> exists x, check s = Ok x /\ Inv b (snd x) (fst x ++ h).
Proof.
  intros H. unfold check. destruct (lis s) eqn:L; [apply same_ok; exact H| |apply same_ok; exact H].
  destruct s as [w r0 j ru wk ar li ac de sh sp]. cs. subst li. open H. go. tk_.
Qed.
Lemma dispatch_ok b s h cr ex : Inv b s h -> exists x, dispatch s cr ex = Ok x /\ Inv b (snd x) (fst x ++ h).
Proof.
  intros H. unfold dispatch. destruct (lis s) eqn:L; [apply same_ok; exact H..|].
  destruct s as [w r0 j ru wk ar li ac de sh sp]. cs. subst li. open H.
  assert (R : r = 0 \/ r = 1 \/ r = 2 \/ r = 3) by (destruct c; cs; intuition).
  assert (K1 : r = 1 \/ r = 3 -> reads c = true) by (destruct c; cs; intuition; subst; discriminate).
  destruct R as [R|[R|[R|R]]]; subst r;
  repeat match goal with |- context [N.land ?a ?b =? 0] => let v := eval vm_compute in (N.land a b =? 0) in change (N.land a b =? 0) with v end; cs.
  - destruct ex; unfold execute; cs; go; try (tk_; fail).
  - destruct cr, ex; unfold execute; cs; go; try (tk_; fail).
    all: ne_; apply TDead; pr_; rewrite K1 by auto; reflexivity.
  - destruct ex; unfold execute; cs; go; try (tk_; fail).
  - destruct cr, ex; unfold execute; cs; go; try (tk_; fail).
    all: ne_; apply TDead; pr_; rewrite K1 by auto; reflexivity.
Qed.
Lemma start_ok b s h : Inv b s h -> exists x, start s = Ok x /\ Inv b (snd x) (fst x ++ h).
Proof.
  intros H. unfold start. destruct (jobs s) as [|j q] eqn:L; [apply same_ok; exact H|].
  destruct s as [w r0 jj ru wk ar li ac de sh sp]. cs. subst jj. open H.
  - assert (R : (e = 0 /\ (reads c || writes c = true)) \/ (e = 1 /\ reads c = true) \/ (e = 2 /\ writes c = true) \/ (e = 3 /\ b = false)) by (destruct c; cs; intuition).
    destruct R as [[R K]|[[R K]|[[R K]|[R K]]]]; subst e; go; try (ne_; apply TIn; [pr_; rewrite ?K; reflexivity|assumption]).
    all: try (intros Q; destruct (Hp Q) as [|[|]]; auto; discriminate).
    ne_. apply (TReuse b h w CRemove c); auto; [discriminate|congruence].
  - go; try (tk_; fail); try discriminate.
    split; [|exact Hs]. destruct r0; [exists n; auto|exfalso]. destruct Hr as (_ & X & _). discriminate X.
Qed.
Lemma ret_ok b s h i c : Inv b s h -> exists x, ret s i c = Ok x /\ Inv b (snd x) (fst x ++ h).
Proof.
  intros H. unfold ret. destruct (nth_error (runs s) i) as [p|] eqn:L; [|apply same_ok; exact H].
  destruct p; try (apply same_ok; exact H).
  destruct s as [w r0 jj ru wk ar li ac de sh sp]. cs. open H; try (destruct i; discriminate L); apply nth1 in L; destruct L as [-> L]; try discriminate L.
  assert (P : pending h = true -> w = 2) by (intros Q; destruct (Hp Q) as [|[X|X]]; auto; discriminate X).
  destruct c; go; try (ne_; econstructor; pr_; discriminate); try (tk_; fail).
Qed.

Lemma runStep_ok b s h i : Inv b s h -> exists x, runStep s i = Ok x /\ Inv b (snd x) (fst x ++ h).
Proof.
  intros H. unfold runStep. destruct (nth_error (runs s) i) as [p|] eqn:L; [|apply same_ok; exact H].
  destruct s as [w r0 jj ru wk ar li ac de sh sp]. cs. open H; try (destruct i; discriminate L); apply nth1 in L; destruct L as [-> ->].
  - apply same_ok. constructor; cs; auto. ne_. constructor; auto.
  - unfold cas; cs. match goal with X : w = 0 \/ w = 2 |- _ => destruct X; subst w end; cs; ev_; go; try (tk_; fail).
  - unfold cas; cs; ev_. go; try (tk_; fail).
  - go; try (tk_; fail); try discriminate.
    split; [|exact Hs]. destruct r0; [exists n; auto|]. exfalso. destruct Hr as (_ & _ & X). discriminate X.
  - destruct c; try contradiction; cs; go; try (tk_; fail).
    1: intros Q; rewrite H3 by exact Q; auto.
    all: match goal with X : _ = ?q \/ _ = CRemove |- _ => destruct X as [X|X]; [subst q|discriminate X] end; tk_; reflexivity.
Qed.
Lemma wcall_ok b s h r : Inv b s h -> exists x, wcall s r = Ok x /\ Inv b (snd x) (fst x ++ h).
Proof.
  intros H. unfold wcall. destruct (dead s) eqn:D; [apply same_ok; exact H|].
  destruct s as [w r0 jj ru wk ar li ac de sh sp]. cs. subst de. eexists. split; [reflexivity|].
  destruct H as [Ht Hc Hp Hr Hw Hs Hm [H1 H2]]; cs. constructor; cs; auto.
  - rewrite nExec_app, Nat.add_0_r. inversion Ht; subst; econstructor; eauto.
  - rewrite app_length. cbn [length]. lia.
  - rsn_.
  - intros x Q. apply in_app_or in Q. destruct Q as [Q|[Q|[]]].
    + eapply wOk_more; [|apply (Hw x Q)]. cs. auto.
    + subst x. cbn. auto.
Qed.
(** the token without the callers' part *)
Lemma tok_ws b h j ru n ar li ac w w' : tok b h j ru n ar li ac false w -> (w = 0 \/ w = 2) -> (w' = 0 \/ w' = 2) -> (w = 2 -> w' = 2) -> tok b h j ru n ar li ac false w'.
Proof. intros Ht A B C. inversion Ht; subst; try (econstructor; eauto; fail). - specialize (C eq_refl). subst w'. now constructor. - destruct A; discriminate. Qed.
Lemma tok_w b h j ru n ar li ac w : tok b h j ru n ar li ac false w -> w = 0 \/ w = 1 \/ w = 2.
Proof. intros Ht. inversion Ht; subst; intuition. Qed.
Lemma tok_ev b h h' j ru n ar li ac w : proto h' = proto h -> lastOwn h' = lastOwn h -> tok b h j ru n ar li ac false w -> tok b h' j ru n ar li ac false w.
Proof. intros E E2 Ht. inversion Ht; subst; econstructor; rewrite ?E, ?E2; eauto. Qed.
Lemma tok_sleep b h j ru n ar li ac : tok b h j ru n ar li ac false 1 ->
  proto h = Some (PWait CWake) /\ j = [] /\ ru = [] /\ n = 0%nat /\ ar = None /\ li = LIdle /\ ac = false.
Proof. intros Ht. inversion Ht; subst; try (destruct H0; discriminate); try (destruct H1; discriminate); try (destruct H3; discriminate); auto 10. Qed.
Lemma tok_exec b h j ru ar li ac w n : tok b h j ru (S n) ar li ac false w ->
  proto h = Some (PWait CWake) /\ j = [] /\ ru = [] /\ n = 0%nat /\ ar = None /\ li = LIdle /\ ac = false /\ (w = 0 \/ w = 2).
Proof. intros Ht. inversion Ht; subst. auto 10. Qed.
Lemma In_nth {A} (l : list A) : forall i x, nth_error l i = Some x -> In x l.
Proof. intros. eapply nth_error_In; eauto. Qed.

Lemma wakeStep_ok b s h i : Inv b s h -> exists x, wakeStep s i = Ok x /\ Inv b (snd x) (fst x ++ h).
Proof.
  intros H. unfold wakeStep. destruct (dead s) eqn:D; [apply same_ok; exact H|].
  destruct (nth_error (wak s) i) as [p|] eqn:L; [|apply same_ok; exact H].
  destruct s as [w r0 jj ru wk ar li ac de sh sp]. cs. subst de.
  destruct H as [Ht Hc Hp Hr Hw Hs Hm [H1 H2]]; cs.
  pose proof (Hw p (In_nth _ _ _ L)) as P. pose proof (tok_w _ _ _ _ _ _ _ _ _ Ht) as W.
  pose proof (length_drop _ _ _ L) as LD. pose proof (nExec_drop _ _ _ L) as ND.
  assert (NU : forall y, (nExec (upd wk i y) + isE p = nExec wk + isE y)%nat) by (intros y; apply nExec_upd; exact L).
  assert (LU : forall y, length (upd wk i y) = length wk) by (intros y; apply upd_length).
  destruct p as [r|r|r v|]; cs.
  - (* 371 *) eexists; split; [reflexivity|]; constructor; cs; auto.
    + specialize (NU (WCas1 r)). cs. replace (nExec (upd wk i (WCas1 r))) with (nExec wk) by lia. exact Ht.
    + rewrite LU. lia.
    + intros x Q. apply In_upd in Q. destruct Q as [Q|Q]; [subst x; cbn; split; [exact P|discriminate]|]. apply (wOk_some _ r0). auto.
  - (* 373 *) destruct P as [P1 P2]. unfold cas; cs. destruct W as [W|[W|W]]; subst w; ev_.
    + eexists; split; [reflexivity|]; constructor; cs; auto.
      * replace (nExec (drop wk i)) with (nExec wk) by lia. apply tok_ev with (h := h); auto. eapply tok_ws; eauto.
      * lb_.
      * destruct r0; [auto|now destruct P2].
      * intros x Q. eapply wOk_more; [|apply (Hw x (In_drop _ _ _ Q))]. cs. auto.
    + eexists; split; [reflexivity|]; constructor; cs; auto.
      * specialize (NU (WCas2 r 1)). cs. replace (nExec (upd wk i (WCas2 r 1))) with (nExec wk) by lia. exact Ht.
      * rewrite LU. lia.
      * intros x Q. apply In_upd in Q. destruct Q as [Q|Q]; [subst x; cbn; split; auto|]. auto.
    + eexists; split; [reflexivity|]; constructor; cs; auto.
      * replace (nExec (drop wk i)) with (nExec wk) by lia. apply tok_ev with (h := h); auto.
      * lb_.
      * destruct r0; auto.
      * intros x Q. eapply wOk_more; [|apply (Hw x (In_drop _ _ _ Q))]. cs. auto.
  - (* 378 *) destruct P as (P1 & P2 & ->). unfold cas; cs. destruct W as [W|[W|W]]; subst w; ev_.
    1, 3: eexists; split; [reflexivity|]; constructor; cs; auto;
      [specialize (NU (WSet r)); cs; replace (nExec (upd wk i (WSet r))) with (nExec wk) by lia; exact Ht
      |rewrite LU; lia
      |intros x Q; apply In_upd in Q; destruct Q as [Q|Q]; [subst x; cbn; auto|auto]].
    destruct (tok_sleep _ _ _ _ _ _ _ _ Ht) as (E1 & E2 & E3 & E4 & E5 & E6 & E7). subst.
    eexists; split; [reflexivity|]; constructor; cs; auto.
    * specialize (NU WExec). cs. replace (nExec (upd wk i WExec)) with 1%nat by lia. constructor; auto.
    * rewrite LU. lb_.
    * intros Q. destruct (Hp Q) as [X|[X|X]]; discriminate X.
    * destruct r0; [auto|now destruct P2].
    * intros x Q; apply In_upd in Q; destruct Q as [Q|Q]; [subst x; cbn; auto|auto].
  - (* 380 *) destruct (nExec wk) as [|n] eqn:NE; [lia|]. destruct (tok_exec _ _ _ _ _ _ _ _ _ Ht) as (E1 & E2 & E3 & E4 & E5 & E6 & E7 & E8). subst.
    eexists; split; [reflexivity|]; constructor; cs; auto.
    * replace (nExec (drop wk i)) with 0%nat by lia. constructor; auto.
    * lia.
    * destruct r0; [auto|now destruct P].
    * intros x Q. eapply wOk_more; [|apply (Hw x (In_drop _ _ _ Q))]. cs. auto.
Qed.

Lemma step_ok b s h l : Inv b s h -> fine b l -> exists x, step s l = Ok x /\ Inv b (snd x) (fst x ++ h).
Proof.
  intros H F. destruct l as [c|f| |cr ex| |i c|i|r|i|]; cbn [step].
  - apply accept_ok; auto. intros ->. exact F.
  - apply fire_ok; auto.
  - now apply check_ok.
  - now apply dispatch_ok.
  - now apply start_ok.
  - now apply ret_ok.
  - now apply runStep_ok.
  - now apply wcall_ok.
  - now apply wakeStep_ok.
  - contradiction.
Qed.
Lemma run_ok b l : forall s h, Inv b s h -> Forall (fine b) l -> exists x, run l h s = Ok x /\ Inv b (snd x) (fst x).
Proof.
  induction l as [|a l IH]; intros s h H F; cbn [run].
  - eexists. split; [reflexivity|exact H].
  - inversion F; subst. destruct (step_ok b s h a H) as (x & E & I); auto. rewrite E. apply IH; auto.
Qed.
Lemma nExec_In l : In WExec l -> (0 < nExec l)%nat.
Proof. induction l as [|x l IH]; [contradiction|]. intros [Q|Q]; cbn [nExec]; [subst x; cbn; lia|specialize (IH Q); lia]. Qed.
Lemma nExec_none l : ~ In WExec l -> nExec l = 0%nat.
Proof. induction l as [|x l IH]; [reflexivity|]. intros Q. cbn [nExec]. rewrite IH by (intros X; apply Q; now right). destruct x; try reflexivity. exfalso. apply Q. now left. Qed.
