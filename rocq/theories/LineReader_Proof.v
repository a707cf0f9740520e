(** Lemmas about the line reader. *)
From Verif Require Import Common LineReader_Model LineReader_Spec.

Definition ends_with (sep s : list Z) : Prop := exists a, s = a ++ sep.

Lemma zlist_eqb_spec a b : zlist_eqb a b = true <-> a = b.
Proof. unfold zlist_eqb. destruct (list_eq_dec Z.eq_dec a b); split; congruence. Qed.

Lemma tail_spec sep b : tail (length sep) b = sep <-> ends_with sep b.
Proof.
  unfold tail, ends_with. split.
  - intros E. exists (firstn (length b - length sep) b). rewrite <- E at 2. symmetry. apply firstn_skipn.
  - intros [a ->]. rewrite app_length. replace (length a + length sep - length sep) with (length a) by lia.
    rewrite skipn_app, skipn_all, Nat.sub_diag. reflexivity.
Qed.

Lemma trunc_app sep a : trunc (length sep) (a ++ sep) = a.
Proof.
  unfold trunc. rewrite app_length. replace (length a + length sep - length sep) with (length a) by lia.
  rewrite firstn_app, firstn_all, Nat.sub_diag, firstn_O. apply app_nil_r.
Qed.

(** no prefix of [s] longer than [p] ends with the separator *)
Definition clean_from (sep p s : list Z) : Prop :=
  forall a b, s = a ++ b -> length p < length a -> ~ ends_with sep a.

Lemma fetch_ok sep : sep <> [] -> forall input buffer, let '(line, rest) := fetch sep buffer input in
  (exists a c, buffer ++ input = line ++ sep ++ rest /\ line ++ sep = a ++ [c] /\ clean_from sep buffer a /\ length rest < length input)
  \/ (line = buffer ++ input /\ rest = [] /\ clean_from sep buffer line).
Proof.
  intros Hs. induction input as [|ch input IH]; intros buffer; cbn [fetch].
  - right. rewrite app_nil_r. repeat split; auto. intros a b E L. subst buffer. rewrite app_length in L. lia.
  - destruct (zlist_eqb (tail (length sep) (buffer ++ [ch])) sep) eqn:E.
    + apply zlist_eqb_spec, tail_spec in E. destruct E as [a E]. left. exists buffer, ch.
      rewrite E, trunc_app. repeat split; auto.
      * rewrite app_assoc, <- E, <- app_assoc. reflexivity.
      * intros a' b' E' L. rewrite E' in L. rewrite app_length in L. lia.
    + specialize (IH (buffer ++ [ch])). destruct (fetch sep (buffer ++ [ch]) input) as [line rest].
      assert (N : ~ ends_with sep (buffer ++ [ch])).
      { intros H. apply tail_spec in H. apply zlist_eqb_spec in H. congruence. }
      assert (K : forall a l, a ++ l = buffer ++ ch :: input -> clean_from sep (buffer ++ [ch]) a -> clean_from sep buffer a).
      { intros a l Ea C x y Ex L. destruct (Nat.eq_dec (length x) (length (buffer ++ [ch]))) as [Ln|Ln].
        - assert (x = buffer ++ [ch]); [|subst x; exact N].
          subst a. rewrite <- app_assoc in Ea. change (buffer ++ ch :: input) with (buffer ++ [ch] ++ input) in Ea.
          rewrite (app_assoc buffer) in Ea.
          apply (f_equal (firstn (length x))) in Ea. rewrite firstn_app, firstn_all, Nat.sub_diag, firstn_O, app_nil_r in Ea.
          rewrite Ln in Ea. rewrite firstn_app, firstn_all, Nat.sub_diag, firstn_O, app_nil_r in Ea. exact Ea.
        - apply (C x y Ex). rewrite app_length in *. cbn [length] in *. lia. }
      destruct IH as [(a & c & E1 & E2 & C & L)|(E1 & E2 & C)].
      * left. exists a, c. rewrite <- app_assoc in E1. cbn [app] in E1. repeat split; auto; [|cbn [length]; lia].
        apply (K a (c :: rest)); auto. rewrite E1, app_assoc, E2, <- app_assoc. reflexivity.
      * right. rewrite <- app_assoc in E1. cbn [app] in E1. repeat split; auto.
        apply (K line []); auto. rewrite app_nil_r. exact E1.
Qed.

Lemma clean_contains sep s : sep <> [] -> clean_from sep [] s -> ~ contains sep s.
Proof.
  intros Hs C (a & b & E). apply (C (a ++ sep) b); [rewrite <- app_assoc; exact E| |exists a; reflexivity].
  rewrite app_length. destruct sep; [congruence|]. cbn. lia.
Qed.

Lemma lines_nil_inv sep s ls : sep <> [] -> lines sep s ls -> s = [] -> ls = [].
Proof.
  intros Hs H. destruct H as [|l N C|l rest ls F H]; intros E; [reflexivity|congruence|].
  apply app_eq_nil in E as [_ E]. apply app_eq_nil in E as [E _]. congruence.
Qed.
