(** Theorems about Optional<T>. *)
From Coq Require Import List Arith Bool Lia.
From Verif Require Import Common Opt_Spec Opt_Model Opt_Proof.
Import ListNotations.

Definition prog : list op :=
  [ONew 0; OValue 0; OSet 0 (SVal [1;2;3]) false; OSet 0 (SValOf 0) true; ONewVal 1 (SPartOf 0) false; OSet 1 (SVal [7]) true; OIsNil 1;
   ONewMove 2 0 false; OIsNil 0; OCopy 1 2 false; OValue 1; OSetC 2 (SPartOf 1) false; OValue 2; ONewC 3 (SVal []) true; OValue 3; ODel 1; ODel 2; ODel 0].

(** C503: an Optional behaves as an option, also when constructors throw, as long as no assignment reads the value it replaces *)
Theorem optional_refines : forall l, Forall (fun p => selfRead p = false) l -> exists rs h s, runs init l = Ok (rs, h, s) /\ rs = fst (aruns (fun _ => None) l).
Proof. intros l F. destruct (runs_ok l init [] _ init_R F) as (rs & e & s & E & Q & _). exists rs, e, s. auto. Qed.
Print Assumptions optional_refines.
Example optional_refines_ex : Forall (fun p => selfRead p = false) prog /\ fst (aruns (fun _ => None) prog) =
  [RUnit; RNull; RUnit; RUnit; RUnit; REx; RBool true; RUnit; RBool true; RUnit; RVal [1;2;3]; RUnit; RVal [2;3]; REx; RBad; RUnit; RUnit; RUnit].
Proof. split; [repeat constructor|reflexivity]. Qed.

(** C504: every object is made once and destroyed at most once, after that; at any time the objects alive are as many as the Optionals that hold a value, and an object alive has the value of one of them *)
Theorem optional_objects : forall l, Forall (fun p => selfRead p = false) l -> exists rs h s, runs init l = Ok (rs, h, s) /\ paired h
  /\ (forall n, (forall o, n <= o -> forall v, snd (aruns (fun _ => None) l) o <> Some (Some v)) -> nMk h = nKill h + holding (snd (aruns (fun _ => None) l)) n)
  /\ (forall i v, alive h i = Some v -> exists o, snd (aruns (fun _ => None) l) o = Some (Some v)).
Proof.
  intros l F. destruct (runs_ok l init [] _ init_R F) as (rs & e & s & E & Q & I). exists rs, e, s. rewrite app_nil_r in I. split; [exact E|]. split; [apply I|]. split.
  - intros n B. apply (r_cnt _ _ _ I). intros o L. specialize (B o L). destruct (snd (aruns (fun _ => None) l) o) as [[v|]|]; auto. now destruct (B v).
  - intros i v A. rewrite <- (r_hist _ _ _ I) in A. destruct (r_leak _ _ _ I i v A) as (o & y & Eo & Ay & By). exists o. rewrite <- (r_abs _ _ _ I). unfold abs. now rewrite Eo, Ay, By, A.
Qed.
Print Assumptions optional_objects.
Example optional_objects_ex : match runs init prog with Ok (_, h, _) => nMk h = 5 /\ nKill h = 5 | _ => False end.
Proof. vm_compute. split; reflexivity. Qed.
Example optional_objects_ex2 : match runs init (firstn 13 prog) with Ok (_, h, _) => nMk h = 5 /\ nKill h = 3 /\ holding (snd (aruns (fun _ => None) (firstn 13 prog))) 3 = 2 | _ => False end.
Proof. vm_compute. repeat split. Qed.

(** C505: assigning a part of its own value, or an object the constructor makes of the old value, reads a destroyed object *)
Theorem optional_self_refuted : ~ (forall l, exists x, runs init l = Ok x)
  /\ (forall l rs h s o x v t, Forall (fun p => selfRead p = false) l -> runs init l = Ok (rs, h, s) -> snd (aruns (fun _ => None) l) o = Some (Some v) -> x = SPartOf o ->
        runs init (l ++ [OSet o x t]) = Undef /\ runs init (l ++ [OSetC o x t]) = Undef).
Proof.
  split.
  - intros H. destruct (H [ONewVal 0 (SVal [1; 2]) false; OSet 0 (SPartOf 0) false]) as (x & Q). vm_compute in Q. discriminate Q.
  - intros l rs h s o x v t F E A ->. destruct (runs_ok l init [] _ init_R F) as (rs2 & e & s2 & E2 & Q & I). rewrite E in E2. injection E2 as <- <- <-.
    assert (X : forall p, step s p = Undef -> runs init (l ++ [p]) = Undef).
    { intros p U. clear -E U. revert E. generalize init. revert rs h. induction l as [|q l IH]; intros rs h s0 E; cbn [app runs] in *.
      - injection E as <- <- <-. now rewrite U.
      - destruct (step s0 q) as [z| | |]; cbn [obind] in *; try discriminate E. destruct (runs (snd z) l) as [w| | |] eqn:W; cbn [obind] in *; try discriminate E. injection E as <- <- E. 
        destruct w as [[w1 w2] w3]. cbn in E. subst. now rewrite (IH _ _ _ W). }
    assert (Y : exists y, opt s o = Some y /\ armed y = true).
    { rewrite <- (r_abs _ _ _ I) in A. unfold abs in A. destruct (opt s o) as [y|]; [|discriminate A]. exists y. split; auto. destruct (armed y); auto. discriminate A. }
    destruct Y as (y & Ey & Ay). destruct (r_own _ _ _ I o y Ey Ay) as (i & u & B & L).
    assert (Z : replace s o y (SPartOf o) t = Undef).
    { unfold replace, kill. rewrite Ay, B. cbn. rewrite L. cbn. rewrite Nat.eqb_refl. unfold read. cbn. now rewrite Nat.eqb_refl. }
    split; apply X; cbn; unfold setVal, setC; rewrite Ey; cbn [refer]; rewrite Ey, Ay; exact Z.
Qed.
Print Assumptions optional_self_refuted.
