(** Proofs about the lock-free list. *)
From Verif Require Import Common SList_Spec SList_Model.

Lemma replay_app h e st : replay (h ++ [e]) st = match replay h st with Some s => replay [e] s | None => None end.
Proof.
  revert st. induction h as [|x h IH]; intros st; [reflexivity|]. cbn [app replay].
  destruct x as [l i|l i|l]; [apply IH| |].
  - destruct (st l) as [|y t]; [reflexivity|]. destruct (y =? i); [apply IH|reflexivity].
  - destruct (st l); [apply IH|reflexivity].
Qed.

Lemma taken_app l h e : taken l (h ++ [e]) = taken l h + taken l [e].
Proof.
  induction h as [|x h IH]; [reflexivity|]. cbn [app taken]. destruct x as [k i|k i|k]; rewrite ?IH; try reflexivity.
  destruct (k =? l); reflexivity.
Qed.

(** the items linked from [p] on *)
Fixpoint chain (nx : nat -> option nat) (p : option nat) (l : list nat) : Prop :=
  match l with
  | [] => p = None
  | x :: r => p = Some x /\ chain nx (nx x) r
  end.

Lemma chain_ext nx nx' p l : (forall x, In x l -> nx' x = nx x) -> chain nx p l -> chain nx' p l.
Proof.
  revert p. induction l as [|x l IH]; intros p E C; [exact C|]. destruct C as [A B]. split; [exact A|].
  rewrite E by (left; reflexivity). apply IH; [|exact B]. intros y I. apply E. right. exact I.
Qed.

Lemma oeqb_eq a b : oeqb a b = true -> a = b.
Proof. destruct a, b; cbn; try discriminate; [|reflexivity]. intros H. apply Nat.eqb_eq in H. congruence. Qed.
Lemma weqb_eq v w : weqb v w = true -> v = w.
Proof.
  destruct v, w. unfold weqb. cbn [fst snd]. intros H. apply andb_true_iff in H as [A B]. apply oeqb_eq in A. apply Nat.eqb_eq in B. congruence.
Qed.

Section Inv.
  Variable align : nat.
  Hypothesis align_pos : 0 < align.

  (** the item a thread is putting into a list *)
  Definition pushing (p : pc) : option nat :=
    match p with PushRead _ i | PushNext _ i _ | PushCas _ i _ => Some i | _ => None end.

  Definition pcOk (s : state) (st : nat -> list nat) (p : pc) : Prop :=
    match p with
    | Idle | PushRead _ _ | PushNext _ _ _ | PopRead _ => True
    | PushCas l i c => nxt s i = fst c
    | PopNext l c k => k <= taken l (log s) /\ snd c = k mod align /\
        exists x, fst c = Some x /\ (k = taken l (log s) -> In x (st l))
    | PopCas l c n k => k <= taken l (log s) /\ snd c = k mod align /\
        exists x, fst c = Some x /\ (k = taken l (log s) -> In x (st l) /\ nxt s x = n)
    | SwapX _ _ _ | SwapW _ _ => False
    end.

  Record inv (s : state) (st : nat -> list nat) : Prop := mkInv {
    i_log : replay (log s) (fun _ => []) = Some st;
    i_chain : forall l, chain (nxt s) (fst (tops s l)) (st l);
    i_cook : forall l, snd (tops s l) = taken l (log s) mod align;
    i_nodup : forall l, NoDup (st l);
    i_disj : forall l l' x, In x (st l) -> In x (st l') -> l = l';
    i_in : forall l x, In x (st l) -> outside s x = false;
    i_push : forall t i, pushing (pcs s t) = Some i -> outside s i = false /\ forall l, ~ In i (st l);
    i_two : forall t u i, pushing (pcs s t) = Some i -> pushing (pcs s u) = Some i -> t = u;
    i_pc : forall t, pcOk s st (pcs s t)
  }.

  Lemma inv_init : inv init (fun _ => []).
  Proof.
    constructor; cbn; auto; try easy.
    - intros l. rewrite Nat.mod_0_l by lia. reflexivity.
    - constructor.
  Qed.

  (** changing the place of one thread only *)
  Lemma inv_setPc s st t p : inv s st -> pcOk s st p -> pushing p = None \/ pushing p = pushing (pcs s t) -> inv (setPc s t p) st.
  Proof.
    intros [A B C D E F G H I] P Q. constructor; cbn [setPc log nxt tops outside pcs]; auto.
    - intros u i. destruct (Nat.eqb_spec u t) as [->|N]; [|apply G]. intros X. apply (G t i). destruct Q as [Q|Q]; congruence.
    - intros u v i. destruct (Nat.eqb_spec u t) as [->|N]; destruct (Nat.eqb_spec v t) as [->|M]; intros X Y; auto.
      + apply (H t v i); [destruct Q; congruence|exact Y].
      + apply (H u t i); [exact X|destruct Q; congruence].
      + eapply H; eauto.
    - intros u. destruct (Nat.eqb_spec u t) as [->|N]; [exact P|]. exact (I u).
  Qed.

  Lemma chain_head nx p x r : chain nx p (x :: r) -> p = Some x.
  Proof. intros [A _]. exact A. Qed.

  Lemma popGot_inv s st t l : inv s st -> pushing (pcs s t) = None -> exists st', inv (popGot t l s) st'.
  Proof.
    intros V Q. unfold popGot. destruct (fst (tops s l)) as [x|] eqn:E.
    - exists st. apply inv_setPc; [exact V| |left; reflexivity]. destruct V as [A B C D F G H I J]. cbn [pcOk].
      split; [lia|]. split; [apply C|]. exists x. split; [exact E|]. intros _. specialize (B l). rewrite E in B.
      destruct (st l); cbn in B; [discriminate|]. destruct B as [B _]. inversion B. left. reflexivity.
    - assert (S0 : st l = []). { pose proof (i_chain _ _ V l) as B. rewrite E in B. destruct (st l); [reflexivity|]. destruct B. discriminate. }
      exists st. destruct V as [A B C D F G H I J]. apply inv_setPc; [|exact Logic.I|left; reflexivity].
      constructor; cbn [logEv log nxt tops outside pcs]; auto.
      + rewrite replay_app, A. cbn [replay]. rewrite S0. reflexivity.
      + intros k. rewrite taken_app. cbn [taken]. rewrite Nat.add_0_r. apply C.
      + intros u. specialize (J u). destruct (pcs s u); cbn [pcOk logEv log nxt tops outside pcs] in *; auto;
          rewrite taken_app; cbn [taken]; rewrite Nat.add_0_r; exact J.
  Qed.

  Definition tameStep (t : nat) (s : state) : Prop :=
    match pcs s t with PopCas l _ _ k => taken l (log s) < k + align | _ => True end.
  Definition plain (c : cmd) : Prop := match c with CPush _ _ | CPop _ => True | _ => False end.

  Lemma mod_close a b : a <= b -> b < a + align -> a mod align = b mod align -> a = b.
  Proof.
    intros L U E. pose proof (Nat.div_mod a align ltac:(lia)) as P. pose proof (Nat.div_mod b align ltac:(lia)) as Q.
    rewrite E in P. assert (a / align = b / align \/ a / align <> b / align) as [X|X] by lia; [rewrite X in P; lia|].
    assert (a / align < b / align \/ b / align < a / align) as [Y|Y] by lia; nia.
  Qed.

  Lemma move_inv s st t c s' : inv s st -> plain c -> tameStep t s -> move align t c s = Some s' -> exists st', inv s' st'.
  Proof.
    intros V PL TS M. unfold move in M. unfold tameStep in TS. pose proof (i_pc _ _ V t) as PC. destruct (pcs s t) as [|l i|l i w|l i w|l|l w k|l w n k|l src w|l w] eqn:EP.
    - destruct c as [l i|l|l src|l src cond]; try destruct PL.
      + destruct (outside s i) eqn:EO; [|discriminate]. injection M as <-. exists st. pose proof V as [A B C D F G H I J].
        constructor; cbn [setPc setOut log nxt tops outside pcs]; auto.
        * intros k x X. destruct (Nat.eqb_spec x i); [reflexivity|]. eapply G; eauto.
        * intros u j. destruct (Nat.eqb_spec u t) as [->|N]; cbn [pushing].
          -- intros X. injection X as <-. rewrite Nat.eqb_refl. split; [reflexivity|]. intros k X. apply G in X. congruence.
          -- intros X. destruct (H u j X) as [Y Z]. split; [|exact Z]. destruct (Nat.eqb_spec j i); [reflexivity|exact Y].
        * intros u v j. destruct (Nat.eqb_spec u t) as [->|N]; destruct (Nat.eqb_spec v t) as [->|N']; cbn [pushing]; intros X Y; auto.
          -- injection X as <-. destruct (H v i Y). congruence.
          -- injection Y as <-. destruct (H u i X). congruence.
          -- eapply I; eauto.
        * intros u. destruct (Nat.eqb_spec u t) as [->|N]; [exact Logic.I|]. exact (J u).
      + injection M as <-. exists st. apply inv_setPc; [exact V|exact Logic.I|left; reflexivity].
    - injection M as <-. exists st. apply inv_setPc; [exact V|exact Logic.I|right]. rewrite EP. reflexivity.
    - injection M as <-. exists st. apply inv_setPc; [|reflexivity + (cbn [pcOk setNxt nxt]; rewrite Nat.eqb_refl; reflexivity)|right; cbn [setNxt pcs]; rewrite EP; reflexivity].
      pose proof V as [A B C D F G H I J]. destruct (H t i) as [NO NI]; [rewrite EP; reflexivity|].
      constructor; cbn [setNxt log nxt tops outside pcs]; auto.
      + intros k. apply (chain_ext (nxt s)); [|apply B]. intros x X. destruct (Nat.eqb_spec x i) as [->|]; [destruct (NI k X)|reflexivity].
      + intros u. specialize (J u). destruct (pcs s u) as [|l1 i1|l1 i1 w1|l1 i1 w1|l1|l1 w1 k1|l1 w1 n1 k1|l1 src1 w1|l1 w1] eqn:EU; cbn [pcOk setNxt nxt log] in *; auto.
        * destruct (Nat.eqb_spec i1 i) as [->|]; [|exact J]. assert (u = t) by (apply (I u t i); [rewrite EU|rewrite EP]; reflexivity). congruence.
        * destruct J as (J1 & J2 & x & J3 & J4). split; [exact J1|]. split; [exact J2|]. exists x. split; [exact J3|]. intros X.
          destruct (J4 X) as [Y Z]. split; [exact Y|]. destruct (Nat.eqb_spec x i) as [->|]; [destruct (NI _ Y)|exact Z].
    - destruct (weqb (tops s l) w) eqn:EW.
      + apply weqb_eq in EW. injection M as <-. pose proof V as [A B C D F G H I J]. destruct (H t i) as [NO NI]; [rewrite EP; reflexivity|].
        cbn [pcOk] in PC. exists (fun k => if k =? l then i :: st l else st k).
        assert (TK : forall k, taken k (log s ++ [EPush l i]) = taken k (log s)) by (intros k; rewrite taken_app; cbn [taken]; lia).
        assert (INC : forall k x, In x (st k) -> In x (if k =? l then i :: st l else st k)).
        { intros k x X. destruct (Nat.eqb_spec k l) as [->|]; [right|]; exact X. }
        constructor; cbn [setPc logEv setTop log nxt tops outside pcs].
        * rewrite replay_app, A. cbn [replay]. reflexivity.
        * intros k. destruct (Nat.eqb_spec k l) as [->|]; [|apply B]. cbn [fst chain]. split; [reflexivity|]. rewrite PC, <- EW. apply B.
        * intros k. rewrite TK. destruct (Nat.eqb_spec k l) as [->|]; [|apply C]. cbn [snd]. rewrite <- EW. apply C.
        * intros k. destruct (Nat.eqb_spec k l) as [->|]; [|apply D]. constructor; [apply NI|apply D].
        * intros k k' x. destruct (Nat.eqb_spec k l) as [->|]; destruct (Nat.eqb_spec k' l) as [->|]; auto.
          -- intros [<-|X] Y; [destruct (NI _ Y)|]. eapply F; eauto.
          -- intros X [<-|Y]; [destruct (NI _ X)|]. eapply F; eauto.
          -- intros X Y. eapply F; eauto.
        * intros k x. destruct (Nat.eqb_spec k l) as [->|]; [intros [<-|X]; [exact NO|]|intros X]; eapply G; eauto.
        * intros u j. destruct (Nat.eqb_spec u t) as [->|N]; [discriminate|]. intros X. destruct (H u j X) as [Y Z]. split; [exact Y|].
          intros k. destruct (Nat.eqb_spec k l) as [->|]; [|apply Z]. intros [<-|X2]; [|destruct (Z _ X2)]. apply N. apply (I u t i); [exact X|rewrite EP; reflexivity].
        * intros u v j. destruct (Nat.eqb_spec u t) as [->|N]; [discriminate|]. destruct (Nat.eqb_spec v t) as [->|N']; [discriminate|]. apply I.
        * intros u. destruct (Nat.eqb_spec u t) as [->|N]; [exact Logic.I|]. specialize (J u).
          destruct (pcs s u) as [|l1 i1|l1 i1 w1|l1 i1 w1|l1|l1 w1 k1|l1 w1 n1 k1|l1 src1 w1|l1 w1] eqn:EU; cbn [pcOk setPc logEv setTop nxt log] in *; auto; rewrite TK.
          -- destruct J as (J1 & J2 & x & J3 & J4). split; [exact J1|]. split; [exact J2|]. exists x. auto.
          -- destruct J as (J1 & J2 & x & J3 & J4). split; [exact J1|]. split; [exact J2|]. exists x. split; [exact J3|]. intros X. destruct (J4 X). auto.
      + injection M as <-. exists st. apply inv_setPc; [exact V|exact Logic.I|right]. rewrite EP. reflexivity.
    - injection M as <-. eapply popGot_inv; [exact V|]. rewrite EP. reflexivity.
    - cbn [pcOk] in PC. destruct PC as (K1 & K2 & x & K3 & K4). rewrite K3 in M. injection M as <-. exists st.
      apply inv_setPc; [exact V| |left; reflexivity]. cbn [pcOk]. split; [exact K1|]. split; [exact K2|]. exists x. auto.
    - cbn [pcOk] in PC. destruct PC as (K1 & K2 & x & K3 & K4). destruct (weqb (tops s l) w) eqn:EW.
      + apply weqb_eq in EW. rewrite K3 in M. injection M as <-. pose proof V as [A B C D F G H I J].
        assert (EK : k = taken l (log s)). { apply mod_close; [exact K1|exact TS|]. rewrite <- C, EW, K2. reflexivity. }
        destruct (K4 EK) as [KI KN]. clear K4 TS K1.
        pose proof (B l) as BL. rewrite EW, K3 in BL. destruct (st l) as [|y r] eqn:ES; [discriminate BL|]. cbn [chain] in BL. destruct BL as [BY BR].
        injection BY as <-. rewrite KN in BR. pose proof (D l) as DL. rewrite ES in DL. apply NoDup_cons_iff in DL as [DX DR].
        exists (fun k => if k =? l then r else st k).
        assert (TK : forall k', taken k' (log s ++ [EPop l x]) = if k' =? l then S (taken k' (log s)) else taken k' (log s)).
        { intros k'. rewrite taken_app. cbn [taken]. rewrite Nat.eqb_sym. destruct (k' =? l); lia. }
        assert (INC : forall k' y, In y (if k' =? l then r else st k') -> In y (st k') /\ y <> x).
        { intros k' y. destruct (Nat.eqb_spec k' l) as [->|NE].
          - rewrite ES. intros Y. split; [right; exact Y|]. intros ->. contradiction.
          - intros Y. split; [exact Y|]. intros ->. apply NE. apply (F k' l x); [exact Y|rewrite ES; left; reflexivity]. }
        constructor; cbn [setPc logEv setTop setOut log nxt tops outside pcs].
        * rewrite replay_app, A. cbn [replay]. rewrite ES, Nat.eqb_refl. reflexivity.
        * intros k'. destruct (Nat.eqb_spec k' l) as [->|]; [exact BR|apply B].
        * intros k'. rewrite TK. destruct (Nat.eqb_spec k' l) as [->|]; [|apply C]. cbn [snd]. rewrite K2, EK.
          rewrite Nat.add_mod_idemp_l by lia. f_equal. lia.
        * intros k'. destruct (Nat.eqb_spec k' l) as [->|]; [exact DR|apply D].
        * intros k1 k2 y X Y. apply INC in X as [X _]. apply INC in Y as [Y _]. eapply F; eauto.
        * intros k' y X. apply INC in X as [X N]. destruct (Nat.eqb_spec y x); [contradiction|]. eapply G; eauto.
        * intros u j. destruct (Nat.eqb_spec u t) as [->|N]; [discriminate|]. intros X. destruct (H u j X) as [Y Z].
          destruct (Nat.eqb_spec j x) as [->|]; [exfalso; apply (Z l); rewrite ES; left; reflexivity|]. split; [exact Y|].
          intros k' X2. apply INC in X2 as [X2 _]. apply (Z _ X2).
        * intros u v j. destruct (Nat.eqb_spec u t) as [->|N]; [discriminate|]. destruct (Nat.eqb_spec v t) as [->|N']; [discriminate|]. apply I.
        * intros u. destruct (Nat.eqb_spec u t) as [->|N]; [exact Logic.I|]. specialize (J u).
          destruct (pcs s u) as [|l1 i1|l1 i1 w1|l1 i1 w1|l1|l1 w1 k1|l1 w1 n1 k1|l1 src1 w1|l1 w1] eqn:EU; cbn [pcOk setPc logEv setTop setOut nxt log] in *; auto; rewrite TK.
          -- destruct J as (J1 & J2 & y & J3 & J4). destruct (Nat.eqb_spec l1 l) as [->|]; (split; [lia|]; split; [exact J2|]; exists y; split; [exact J3|]); [lia|exact J4].
          -- destruct J as (J1 & J2 & y & J3 & J4). destruct (Nat.eqb_spec l1 l) as [->|]; (split; [lia|]; split; [exact J2|]; exists y; split; [exact J3|]); [lia|exact J4].
      + injection M as <-. eapply popGot_inv; [exact V|]. rewrite EP. reflexivity.
    - destruct PC.
    - destruct PC.
  Qed.
End Inv.
