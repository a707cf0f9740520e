From Coq Require Import ZifyBool.
From Verif Require Import Common IntText_Model XmlEnt_Spec XmlEnt_Model.
Open Scope Z_scope.

Lemma find_none : forall c l, find c l = None -> ~ In c l.
Proof.
  induction l as [|x l IH]; cbn; [tauto|]. destruct (Z.eqb_spec x c) as [E|E]; [discriminate|]. destruct (find c l); [discriminate|]. intros _ [Q|Q]; [lia|]. exact (IH eq_refl Q).
Qed.
Lemma find_split : forall c l n, find c l = Some n -> l = firstn n l ++ c :: skipn (n + 1) l /\ ~ In c (firstn n l) /\ (n < length l)%nat.
Proof.
  induction l as [|x l IH]; intros n; cbn [find]; [discriminate|]. destruct (Z.eqb_spec x c) as [E|E].
  - intros Q; injection Q as <-. cbn. subst x. split; [reflexivity|]. split; [tauto|lia].
  - destruct (find c l) as [k|]; [|discriminate]. intros Q; injection Q as <-. destruct (IH k eq_refl) as (A & B & C). cbn [firstn skipn Nat.add app length].
    split; [f_equal; exact A|]. split; [|lia]. intros [Q|Q]; [lia|exact (B Q)].
Qed.
Lemma find_app : forall c a t, ~ In c a -> find c (a ++ c :: t) = Some (length a).
Proof.
  induction a as [|x a IH]; intros t N; cbn [app find length]; [rewrite Z.eqb_refl; reflexivity|]. destruct (Z.eqb_spec x c) as [E|E]; [exfalso; apply N; left; exact E|].
  rewrite IH; [reflexivity|]. intros Q; apply N; right; exact Q.
Qed.
Lemma find_absent : forall c l, ~ In c l -> find c l = None.
Proof.
  induction l as [|x l IH]; intros N; cbn [find]; [reflexivity|]. destruct (Z.eqb_spec x c) as [E|E]; [exfalso; apply N; left; exact E|].
  rewrite IH; [reflexivity|]. intros Q; apply N; right; exact Q.
Qed.
(** one turn of the loop *)
Lemma fix_turn : forall fuel buff a name t, ~ In 38 a -> ~ In 59 name ->
  fixLoop (S fuel) buff (a ++ 38 :: name ++ 59 :: t) (find 38 (a ++ 38 :: name ++ 59 :: t)) = fixLoop fuel (buff ++ a ++ [loadEntity name 59]) t (find 38 t).
Proof.
  intros fuel buff a name t NA NN. rewrite find_app by exact NA. cbn [fixLoop].
  replace (firstn (length a) (a ++ 38 :: name ++ 59 :: t)) with a by (rewrite firstn_app, Nat.sub_diag, firstn_all; cbn; rewrite app_nil_r; reflexivity).
  replace (skipn (length a + 1) (a ++ 38 :: name ++ 59 :: t)) with (name ++ 59 :: t)
    by (rewrite skipn_app, skipn_all2 by lia; replace (length a + 1 - length a)%nat with 1%nat by lia; reflexivity).
  rewrite find_app by exact NN. cbv zeta.
  replace (firstn (length name) (name ++ 59 :: t)) with name by (rewrite firstn_app, Nat.sub_diag, firstn_all; cbn; rewrite app_nil_r; reflexivity).
  replace (skipn (length name + 1) (name ++ 59 :: t)) with t
    by (rewrite skipn_app, skipn_all2 by lia; replace (length name + 1 - length name)%nat with 1%nat by lia; reflexivity).
  rewrite <- app_assoc. reflexivity.
Qed.
Lemma entity_form : forall c e, entity c e -> exists name, e = 38 :: name ++ [59] /\ ~ In 59 name /\ loadEntity name 59 = c.
Proof.
  intros c e H. destruct H;
    [exists [108; 116]|exists [103; 116]|exists [97; 109; 112]|exists [97; 112; 111; 115]|exists [113; 117; 111; 116]];
    (split; [reflexivity|split; [cbn; lia|reflexivity]]).
Qed.
(** a written text is a plain part, then an entity or the end *)
Lemma written_split : forall s t, written s t ->
  (exists a, s = a /\ t = a /\ ~ In 38 a) \/
  (exists a c e s' t', s = a ++ c :: s' /\ t = a ++ e ++ t' /\ ~ In 38 a /\ entity c e /\ written s' t').
Proof.
  induction 1 as [|c s t N W IH|c e s t E W IH].
  - left. exists []. repeat split; auto.
  - destruct IH as [(a & -> & -> & NA)|(a & c' & e & s' & t' & -> & -> & NA & E & W')].
    + left. exists (c :: a). split; [reflexivity|]. split; [reflexivity|]. intros [Q|Q]; [lia|exact (NA Q)].
    + right. exists (c :: a), c', e, s', t'. split; [reflexivity|]. split; [reflexivity|]. split; [intros [Q|Q]; [lia|exact (NA Q)]|]. split; assumption.
  - right. exists [], c, e, s, t. split; [reflexivity|]. split; [reflexivity|]. split; [tauto|]. split; assumption.
Qed.
Lemma fix_written : forall fuel s t buff, written s t -> (length t <= fuel)%nat -> fixLoop fuel buff t (find 38 t) = Ok (buff ++ s).
Proof.
  induction fuel as [|fuel IH]; intros s t buff W L.
  - destruct t; [|cbn in L; lia]. destruct (written_split _ _ W) as [(a & -> & <- & _)|(a & c & e & s' & t' & _ & Q & _ & E & _)]; [reflexivity|].
    exfalso. destruct (entity_form _ _ E) as (n & -> & _). destruct a; discriminate Q.
  - destruct (written_split _ _ W) as [(a & -> & -> & NA)|(a & c & e & s' & t' & -> & -> & NA & E & W')].
    + rewrite find_absent by exact NA. reflexivity.
    + destruct (entity_form _ _ E) as (name & -> & NN & LE).
      replace (a ++ (38 :: name ++ [59]) ++ t') with (a ++ 38 :: name ++ 59 :: t') in * by (cbn [app]; rewrite <- app_assoc; reflexivity).
      rewrite fix_turn by assumption. rewrite LE. rewrite (IH s' t'); [rewrite <- !app_assoc; reflexivity|exact W'|].
      rewrite !app_length in L. cbn [length] in L. rewrite app_length in L. cbn [length] in L. lia.
Qed.
Lemma fix_fuel : forall fuel t buff, (length t <= fuel)%nat -> exists r, fixLoop fuel buff t (find 38 t) = Ok r.
Proof.
  induction fuel as [|fuel IH]; intros t buff L.
  - destruct t; [|cbn in L; lia]. eexists; reflexivity.
  - cbn [fixLoop]. destruct (find 38 t) as [x|] eqn:F; [|eexists; reflexivity]. cbv zeta. apply find_split in F. destruct F as (_ & _ & X).
    destruct (find 59 (skipn (x + 1) t)) as [y|]; apply IH; rewrite ?skipn_length; lia.
Qed.
