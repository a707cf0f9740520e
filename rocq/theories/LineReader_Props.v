(** C41: the line reader. *)
From Verif Require Import Common LineReader_Model LineReader_Spec LineReader_Proof.

Theorem C41_lines : forall sep input fuel, sep <> [] -> length input <= fuel ->
  exists ls, readAll fuel sep (newReader input) = Ok ls /\ lines sep input ls.
Proof.
  intros sep input fuel Hs.
  enough (G : forall fuel input buf, length input <= fuel ->
    exists ls, readAll fuel sep (mkReader input buf true) = Ok ls /\ lines sep input ls) by (intros H; apply G; exact H).
  clear input fuel. induction fuel as [|fuel IH]; intros input buf Hf.
  - destruct input; [|cbn in Hf; lia]. exists []. split; [reflexivity|constructor].
  - destruct input as [|c0 input0]; [exists []; split; [reflexivity|constructor]|].
    set (input := c0 :: input0) in *.
    pose proof (fetch_ok sep Hs input []) as F.
    cbn [readAll]. unfold hasItems, fetchLine. cbn [r_need r_input]. unfold input at 1. cbn iota. fold input.
    destruct (fetch sep [] input) as [line rest]. cbn [app] in F.
    unfold getNext, fetchLine. cbn [r_need]. cbn iota. cbn [obind r_buffer r_input].
    destruct F as [(a & c & E1 & E2 & C & L)|(E1 & E2 & C)].
    + destruct (IH rest line) as (ls & E & Ls); [lia|]. rewrite E. cbn [obind]. exists (line :: ls). split; [reflexivity|].
      rewrite E1. constructor; [|exact Ls]. intros x y Exy.
      destruct y as [|y0 y] using rev_ind.
      * rewrite app_nil_r in Exy. apply app_inv_tail in Exy. auto.
      * exfalso. clear IHy. rewrite E2 in Exy. rewrite !app_assoc in Exy. apply app_inj_tail in Exy as [Ea _].
        rewrite <- app_assoc in Ea. apply (clean_contains sep a Hs C). exists x, y. exact Ea.
    + subst line rest. destruct (IH [] input) as (ls & E & Ls); [cbn; lia|].
      assert (ls = []) by (apply (lines_nil_inv sep [] ls Hs Ls eq_refl)).
      subst ls. rewrite E. cbn [obind]. exists [input]. split; [reflexivity|]. constructor; [discriminate|].
      apply clean_contains; auto.
Qed.
Print Assumptions C41_lines.

(** Nothing is lost: the lines, each followed by the separator, are the text, up to the
    separator that may be missing at the end; and no line contains the separator. *)
Theorem C41_join : forall sep input ls, sep <> [] -> lines sep input ls ->
  (concat (map (fun l => l ++ sep) ls) = input \/ concat (map (fun l => l ++ sep) ls) = input ++ sep)
  /\ Forall (fun l => ~ contains sep l) ls.
Proof.
  intros sep input ls Hs H. induction H as [|l N C|l rest ls F H [IH1 IH2]].
  - split; [left; reflexivity|constructor].
  - split; [right; cbn; apply app_nil_r|]. constructor; auto.
  - split.
    + cbn [map concat]. rewrite <- !app_assoc. destruct IH1 as [->| ->]; auto.
    + constructor; auto. intros (a & b & E). specialize (F a (b ++ sep)). rewrite E, <- !app_assoc in F.
      specialize (F eq_refl). apply (f_equal (@length Z)) in F. rewrite !app_length in F.
      destruct sep; [congruence|]. cbn in F. lia.
Qed.
Print Assumptions C41_join.

(** The answer is unique. *)
Theorem C41_unique : forall sep input l1 l2, sep <> [] -> lines sep input l1 -> lines sep input l2 -> l1 = l2.
Proof.
  intros sep input l1 l2 Hs H. revert l2. induction H as [|l N C|l rest ls F H IH]; intros l2 H2.
  - symmetry. apply (lines_nil_inv sep [] l2 Hs H2 eq_refl).
  - inversion H2 as [|l' N' C'|l' rest' ls' F' H' E]; subst; auto; [congruence|].
    exfalso. apply C. exists l', rest'. reflexivity.
  - inversion H2 as [E|l' N' C' E|l' rest' ls' F' H' E].
    + exfalso. symmetry in E. apply app_eq_nil in E as [_ E]. apply app_eq_nil in E as [E _]. congruence.
    + subst. exfalso. apply C'. exists l, rest. reflexivity.
    + assert (l' = l) as ->.
      { assert (P : forall (p q x y : list Z), (forall a b, p ++ sep = a ++ sep ++ b -> a = p) -> p ++ sep ++ x = q ++ sep ++ y ->
          length q <= length p -> q = p).
        { intros p q x y Fp Epq L.
          apply (Fp q (firstn (length p - length q) y)).
          apply (f_equal (firstn (length (p ++ sep)))) in Epq. rewrite !app_assoc in Epq.
          rewrite firstn_app, firstn_all, Nat.sub_diag, firstn_O, app_nil_r in Epq. rewrite Epq.
          rewrite firstn_app. rewrite firstn_all2 by (rewrite !app_length; lia). rewrite <- app_assoc. do 3 f_equal.
          rewrite !app_length. lia. }
        destruct (Nat.le_gt_cases (length l') (length l)) as [L|L].
        - apply (P l l' rest rest'); auto.
        - symmetry. apply (P l' l rest' rest); auto. lia. }
      apply app_inv_head, app_inv_head in E. subst rest'. f_equal. apply IH. exact H'.
Qed.
Print Assumptions C41_unique.

Example c41_demo : readAll 20 [13; 10]%Z (newReader [97; 13; 13; 10; 13; 10; 98]%Z) = Ok [[97; 13]; []; [98]]%Z.
Proof. reflexivity. Qed.
