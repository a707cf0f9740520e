(** Properties of the entities of the XML parser. *)
From Verif Require Import Common IntText_Model XmlEnt_Spec XmlEnt_Model XmlEnt_Proof.
Open Scope Z_scope.

(** A text with some characters written as named entities is read back. *)
Theorem xmlent_named : forall s t, written s t -> fixEntities t = Ok s.
Proof.
  intros s t W. unfold fixEntities. destruct (find 38 t) as [x|] eqn:F.
  - rewrite <- F. rewrite (fix_written (length t) s t [] W); [reflexivity|lia].
  - destruct (written_split _ _ W) as [(a & -> & -> & _)|(a & c & e & s' & t' & _ & -> & _ & E & _)]; [reflexivity|].
    exfalso. destruct (entity_form _ _ E) as (n & -> & _). apply find_none in F. apply F. apply in_or_app. right. left. reflexivity.
Qed.
(** What the usual writer writes is read back. *)
Theorem xmlent_roundtrip : forall s, fixEntities (escape s) = Ok s.
Proof.
  intros s. apply xmlent_named. induction s as [|c s IH]; [constructor|]. unfold escape. cbn [flat_map]. fold (escape s). unfold escape1.
  destruct (Z.eqb_spec c 60) as [->|N1]; [apply w_entity; [constructor|exact IH]|].
  destruct (Z.eqb_spec c 62) as [->|N2]; [apply w_entity; [constructor|exact IH]|].
  destruct (Z.eqb_spec c 38) as [->|N3]; [apply w_entity; [constructor|exact IH]|].
  destruct (Z.eqb_spec c 39) as [->|N4]; [apply w_entity; [constructor|exact IH]|].
  destruct (Z.eqb_spec c 34) as [->|N5]; [apply w_entity; [constructor|exact IH]|]. apply w_plain; [exact N3|exact IH].
Qed.
(** a<b & "c" *)
Example xmlent_roundtrip_ex :
  escape [97; 60; 98; 38; 34] = [97; 38; 108; 116; 59; 98; 38; 97; 109; 112; 59; 38; 113; 117; 111; 116; 59] /\
  fixEntities [97; 38; 108; 116; 59; 98; 38; 97; 109; 112; 59; 38; 113; 117; 111; 116; 59] = Ok [97; 60; 98; 38; 34].
Proof. split; reflexivity. Qed.
(** Every text is read, and a text without semicolons is not changed. *)
Theorem xmlent_total : forall t, (exists r, fixEntities t = Ok r) /\ (~ In 59 t -> fixEntities t = Ok t).
Proof.
  intros t. split.
  - unfold fixEntities. destruct (find 38 t) as [x|] eqn:F; [|eexists; reflexivity]. rewrite <- F. apply fix_fuel. lia.
  - assert (G : forall fuel t buff, (length t <= fuel)%nat -> ~ In 59 t -> fixLoop fuel buff t (find 38 t) = Ok (buff ++ t)).
    { induction fuel as [|fuel IH]; intros u buff L N.
      - destruct u; [reflexivity|cbn in L; lia].
      - cbn [fixLoop]. destruct (find 38 u) as [x|] eqn:F; [|reflexivity]. cbv zeta. apply find_split in F. destruct F as (E & _ & X).
        assert (N' : ~ In 59 (skipn (x + 1) u)) by (intros Q; apply N; rewrite E; apply in_or_app; right; right; exact Q).
        rewrite (find_absent _ _ N'). rewrite IH; [|rewrite skipn_length; lia|exact N']. f_equal. rewrite <- !app_assoc. f_equal. symmetry. exact E. }
    intros N. unfold fixEntities. destruct (find 38 t) as [x|] eqn:F; [|reflexivity]. rewrite <- F. rewrite G; [reflexivity|lia|exact N].
Qed.
Example xmlent_total_ex : fixEntities [97; 38; 98; 38] = Ok [97; 38; 98; 38].
Proof. reflexivity. Qed.
(** FALSE: a decimal reference gives the character of its number.  The number is read from the sign '#', so it is always 0. *)
Theorem xmlent_numeric_refuted : forall l, dec_digits l -> fixEntities ([38; 35] ++ l ++ [59]) = Ok [0].
Proof.
  intros l (_ & D). assert (N : ~ In 59 (35 :: l)) by (intros [Q|Q]; [lia|]; rewrite Forall_forall in D; specialize (D _ Q); lia).
  unfold fixEntities. cbn [app find]. change (38 =? 38) with true. cbv iota.
  pose proof (fix_turn (length l + 2) [] [] (35 :: l) [] ltac:(tauto) N) as T. cbn [app] in T.
  replace (length (38 :: 35 :: l ++ [59])) with (S (length l + 2)) by (cbn [length]; rewrite app_length; cbn [length]; lia).
  cbn [find] in T. change (38 =? 38) with true in T. cbv iota in T. rewrite T. rewrite Nat.add_comm. cbn [fixLoop app Nat.add].
  f_equal. f_equal. unfold loadEntity. cbn [eqText]. change (35 =? 108) with false. change (35 =? 103) with false. change (35 =? 97) with false. change (35 =? 113) with false.
  cbn [andb hd]. change (35 =? 35) with true. cbv iota. unfold parseU. cbn [parseLoop]. change (digitVal 35) with (@None Z). cbn [fst snd]. destruct (_ && _)%bool; reflexivity.
Qed.
(** &#65; is A *)
Example xmlent_numeric_ex : dec_digits [54; 53] /\ dec_value [54; 53] = 65 /\ fixEntities [38; 35; 54; 53; 59] = Ok [0].
Proof. split; [split; [discriminate|repeat constructor; lia]|]. split; reflexivity. Qed.
(** FALSE: text that is no known entity is kept.  Everything up to the next semicolon is lost: "R&D dept; x" gives "R& x". *)
Theorem xmlent_unknown_refuted : fixEntities [82; 38; 68; 32; 100; 101; 112; 116; 59; 32; 120] = Ok [82; 38; 32; 120].
Proof. reflexivity. Qed.
Print Assumptions xmlent_named.
Print Assumptions xmlent_roundtrip.
Print Assumptions xmlent_total.
Print Assumptions xmlent_numeric_refuted.
Print Assumptions xmlent_unknown_refuted.
