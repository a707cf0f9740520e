(** Properties of the reader of a command line. *)
From Verif Require Import Common CmdLine_Spec CmdLine_Model CmdLine_Proof.

(** C545: the usual loop gives exactly the items of the arguments, from argument [k] on *)
Theorem cmd_items : forall z args k, z = true \/ ~ In [] args ->
  forall fuel, length (items (skipn k args)) < fuel -> readAll fuel z args (start k) = Ok (items (skipn k args)).
Proof. intros z args k G fuel L. apply (readAll_ok z args G fuel _ _ (R_start args k) L). Qed.
Print Assumptions cmd_items.
Example cmd_items_example : readAll 10 true [[7]; [45; 1; 2; 45]; [45; 45; 5; 6]; []; [45]; [45; 45]; [1; 45]] (start 1)
  = Ok [Short [1]; Short [2]; Short [45]; Long [5; 6]; Text []; Text [45]; Long []; Text [1; 45]].
Proof. reflexivity. Qed.

(** C546: every sequence of calls gives what reading step by step gives, and throws
    only where nothing is left *)
Theorem cmd_calls : forall z args k l, z = true \/ ~ In [] args ->
  match calls l (mkPos None (skipn k args)) with
  | Ok rs => exists s, execs z args l (start k) = Ok (rs, s)
  | Throw => execs z args l (start k) = Throw
  | _ => False
  end.
Proof. intros z args k l G. apply (calls_ok z args G). apply R_start. Qed.
Print Assumptions cmd_calls.
(** -xofile -n: x is read, then o, then its value, then n *)
Example cmd_calls_example :
  calls [Next; Peek; Next; NextText; Remain; Next; Has; Next] (mkPos None [[45; 1; 2; 30; 31]; [45; 3]]) = Throw /\
  calls [Next; Peek; Next; NextText; Remain; Next; Has] (mkPos None [[45; 1; 2; 30; 31]; [45; 3]])
  = Ok [RItem (Short [1]); RItem (Short [2]); RItem (Short [2]); RText [30; 31]; RArgs [[45; 3]]; RItem (Short [3]); RBool false].
Proof. split; reflexivity. Qed.

(** C547: an iterator that has read more is greater, and one that has read nothing more is equal *)
Theorem cmd_order : forall z args k l1 l2 rs1 rs2 s1 s2, z = true \/ ~ In [] args ->
  execs z args l1 (start k) = Ok (rs1, s1) -> execs z args (l1 ++ l2) (start k) = Ok (rs2, s2) ->
  lessThan s1 s2 = existsb consumes l2 /\ equalTo s1 s2 = negb (existsb consumes l2) /\ lessThan s2 s1 = false.
Proof.
  intros z args k l1 l2 rs1 rs2 s1 s2 G E1 E2.
  assert (H : forall l s p rs s', R args s p -> execs z args l s = Ok (rs, s') -> exists p', R args s' p').
  { induction l as [|o l IH]; intros s p rs s' H E; cbn in E. - injection E as _ <-. eauto.
    - apply obind_ok in E. destruct E as ((r & s3) & F1 & F2). apply obind_ok in F2. destruct F2 as ((rs' & s4) & F2 & F3). injection F3 as _ <-.
      pose proof (call_ok z args o s p G H) as C. destruct (call o p) as [[r' p']| | |]; try contradiction; [|congruence].
      destruct C as (s3' & E & H' & _). assert (s3' = s3) by congruence. subst. eapply IH; eauto. }
  assert (A : forall l l' s, execs z args (l ++ l') s = let! (r, s') := execs z args l s in let! (r', s'') := execs z args l' s' in Ok (r ++ r', s'')).
  { induction l as [|o l IH]; intros l' s; cbn. - destruct (execs z args l' s) as [[? ?]| | |]; auto.
    - destruct (exec z args o s) as [[r s3]| | |]; cbn; auto. rewrite IH. destruct (execs z args l s3) as [[r4 s4]| | |]; cbn; auto.
      destruct (execs z args l' s4) as [[? ?]| | |]; auto. }
  destruct (H l1 _ _ _ _ (R_start args k) E1) as (p1 & H1). rewrite A, E1 in E2. cbn [obind] in E2.
  apply obind_ok in E2. destruct E2 as ((r' & s') & E2 & E3). injection E3 as _ <-.
  pose proof (execs_less z args G l2 s1 p1 r' s' H1 E2) as L. destruct (existsb consumes l2).
  - apply less_neq in L as (L1 & L2). rewrite L1, L2. repeat split; auto. pose proof (execs_less z args G l2 s1 p1 r' s' H1 E2). 
    destruct (lessThan s1 s') eqn:Q; auto. exfalso. unfold lessThan, equalTo in *. lia.
  - subst s'. unfold lessThan, equalTo. rewrite !Nat.eqb_refl, !Nat.ltb_irrefl. auto.
Qed.
Print Assumptions cmd_order.
Example cmd_order_example : exists s1 s2, execs true [[45; 1; 2]] [Next] (start 0) = Ok ([RItem (Short [1])], s1) /\
  execs true [[45; 1; 2]] ([Next] ++ [Peek; Next]) (start 0) = Ok ([RItem (Short [1]); RItem (Short [2]); RItem (Short [2])], s2) /\
  lessThan s1 s2 = true.
Proof. do 2 eexists. repeat split. Qed.

(** C548: reading an empty argument whose characters are not followed by a zero reads outside of it *)
Theorem cmd_empty_refuted : forall pre post, execs false (pre ++ [] :: post) [Next] (start (length pre)) = Undef.
Proof.
  intros pre post. cbn [execs exec]. unfold getNext, peek, hasItems. cbn [start argPos charPos].
  rewrite app_length. cbn [length]. rewrite (proj2 (Nat.ltb_lt _ _)) by lia. rewrite app_nth2, Nat.sub_diag by lia. reflexivity.
Qed.
Print Assumptions cmd_empty_refuted.
