(** Properties of file paths (C306 to C315).  The separator is a parameter; the first
    four theorems are about the configuration without drives (Linux). *)
From Coq Require Import ZArith Lia List Ascii String.
From Verif Require Import Common Path_Spec Path_Model Path_Proof.
Import ListNotations.
Local Open Scope Z_scope.

(** ASCII text; the sign ! stands for a backslash *)
Fixpoint tx (s : string) : list Z :=
  match s with EmptyString => [] | String c r => (if Ascii.eqb c "!" then 92 else Z.of_nat (nat_of_ascii c)) :: tx r end.
Definition lnx := 47.
Definition win := 92.
Infix "/." := Name (at level 40, left associativity).

(** C306: names are joined to the directory of the path *)
Theorem path_join : forall sep e d x t, pos (base e) = Null -> ~ endsWithDots (txt (base e)) -> lastSep sep (txt (base e)) d x ->
  joined sep (fun _ => d) e = Some t ->
  exists end_, loadPath sep true e = Ok (mkPath (t ++ end_)) /\ (directory e -> end_ = [sep]) /\ (~ directory e -> end_ = []).
Proof.
  intros sep e d x t P N L J. exists (if isFolder e then [sep] else []). split.
  - replace (t ++ (if isFolder e then [sep] else []))%list with (if isFolder e then t ++ [sep] else t)%list by (destruct (isFolder e); [reflexivity|symmetry; apply app_nil_r]).
    apply load_write. apply (write_joined sep d); [|exact J]. apply (getPath_dir sep (base e) d x); assumption.
  - destruct e; cbn; tauto.
Qed.
Print Assumptions path_join.
Example path_join_ex :
  joined lnx (fun _ => tx "/etc/app") (Base (mkPath (tx "/etc/app/main.conf")) /. tx "sub" /. tx "x.txt") = Some (tx "/etc/app/sub/x.txt") /\
  lastSep lnx (tx "/etc/app/main.conf") (tx "/etc/app") (tx "main.conf") /\ ~ endsWithDots (tx "/etc/app/main.conf") /\
  joined lnx (fun _ => tx "/etc/app") (Base (mkPath (tx "/etc/app/main.conf")) /. tx "sub" /. tx "/tmp" /. tx "x") = Some (tx "/tmp/x").
Proof.
  split; [reflexivity|]. split; [|split; [|reflexivity]].
  - split; [reflexivity|]. vm_compute. intuition discriminate.
  - intro H. apply tail_dots in H. vm_compute in H. discriminate H.
Qed.

(** C307: [parent] leads one directory up, in every expression *)
Theorem path_parents : forall sep e d x, pos (base e) = Null -> ~ endsWithDots (txt (base e)) -> lastSep sep (txt (base e)) d x ->
  (d = [] \/ cleanAbs sep d) -> names (fun h => cleanRel sep h \/ cleanAbs sep h) e ->
  exists t, loadPath sep true e = Ok (mkPath t) /\ place sep t = whereTo sep (fun _ => d) e /\ (directory e -> exists u, t = u ++ [sep])%list.
Proof.
  intros sep e d x P N L D C.
  destruct (write_clean sep d e) with (s := O) as (w & E & W); [apply (getPath_dir sep (base e) d x); assumption|exact D|exact C|].
  rewrite Nat.sub_0_r, firstn_all in W. eexists. split; [apply load_write, E|].
  split; [destruct (isFolder e); [|exact W]; rewrite place_join; exact W|].
  intro D2. exists w. destruct e; cbn in *; tauto.
Qed.
Print Assumptions path_parents.
Definition eSample := Parent (Parent (Parent (Base (mkPath (tx "/a/b/f"))) /. tx "c/d" /. tx "e")) /. tx "g".
Example path_parents_ex : cleanAbs lnx (tx "/a/b") /\ names (fun h => cleanRel lnx h \/ cleanAbs lnx h) eSample /\
  whereTo lnx (fun _ => tx "/a/b") eSample = [tx "a"; tx "c"; tx "g"] /\
  loadPath lnx true eSample = Ok (mkPath (tx "/a/c//g")).
Proof.
  split; [exists (tx "a/b"); split; [reflexivity|]; repeat constructor; discriminate|].
  split; [|split; reflexivity].
  repeat split; left; repeat constructor; discriminate.
Qed.

(** C308: the buffer has exactly the size of the path, in every configuration *)
Theorem path_fits : forall sep nodrive e, pos (base e) <> Unset -> exists t, loadPath sep nodrive e = Ok (mkPath t).
Proof.
  intros sep nd e P. pose proof (length_write sep nd e O) as L.
  destruct (writePath sep nd e O) as [[w s]| | |] eqn:E; try contradiction; [|tauto].
  destruct L as [L ->]. eexists. apply load_write, E.
Qed.
Print Assumptions path_fits.
Example path_fits_ex : loadPath win false (Parent (Base (mkPath (tx "C:!a!b!f")) /. tx "x")) = Ok (mkPath (tx "C:!a!b!!")).
Proof. reflexivity. Qed.

(** C309: the parts of a path, asked in any order *)
Definition answer (d x a b u : list Z) (q : query) : list Z :=
  match q with QPath => d | QName => x | QTitle => a | QExt => b | QParent => u end.
Theorem path_parts : forall sep t d x a b u qs, lastSep sep t d x -> ~ endsWithDots t -> titleExt x a b -> upOf sep d u ->
  asks sep qs (mkPath t) = Ok (map (answer d x a b u) qs) /\
  forall f g, txt g = t -> asks sep qs (assign f g) = Ok (map (answer d x a b u) qs).
Proof.
  intros sep t d x a b u qs L N T U. unfold mkPath, assign.
  assert (G : forall c, (c = Null \/ c = At (length d)) -> asks sep qs (mkF t c) = Ok (map (answer d x a b u) qs)).
  { induction qs as [|q qs IH]; intros c C; [reflexivity|]. cbn [asks map].
    destruct (ask_ok sep t d x a b u L N T U q c C) as (c' & E & C'). rewrite E. cbn [obind]. rewrite (IH c' C'). reflexivity. }
  split; [|intros f g <-]; apply G; auto.
Qed.
Print Assumptions path_parts.
Example path_parts_ex : asks lnx [QExt; QPath; QTitle; QName; QParent] (mkPath (tx "/usr/lib/a.tar.gz")) =
  Ok [tx "gz"; tx "/usr/lib"; tx "a.tar"; tx "a.tar.gz"; tx "/usr"] /\
  lastSep lnx (tx "/usr/lib/a.tar.gz") (tx "/usr/lib") (tx "a.tar.gz") /\ titleExt (tx "a.tar.gz") (tx "a.tar") (tx "gz") /\ upOf lnx (tx "/usr/lib") (tx "/usr").
Proof.
  split; [reflexivity|]. split; [split; [reflexivity|vm_compute; intuition discriminate]|].
  split; [right; split; [reflexivity|vm_compute; intuition discriminate]|]. right. exists (tx "lib"). split; [reflexivity|vm_compute; intuition discriminate].
Qed.

(** C315: a path made as a directory *)
Theorem path_directory : forall sep t, sep <> 46 -> (forall y, t <> y ++ [sep]) ->
  txt (mkPathDir sep t true) = t ++ [sep] /\ mkPathDir sep (t ++ [sep]) true = mkPathDir sep t true /\
  (forall t, mkPathDir sep t false = mkPath t) /\
  asks sep [QPath; QName] (mkPathDir sep t true) = Ok [t; []].
Proof.
  intros sep t S N.
  assert (T : teq (tail (t ++ [sep]) 1) [sep] = true).
  { apply teq_spec. unfold tail. rewrite app_length. cbn [length]. replace (length t + 1 - 1)%nat with (length t) by lia.
    rewrite skipn_app, skipn_all, Nat.sub_diag. reflexivity. }
  assert (M : mkPathDir sep t true = mkPath (t ++ [sep])).
  { unfold mkPathDir. destruct (teq (tail t 1) [sep]) eqn:E; [|reflexivity].
    apply teq_spec in E. exfalso. apply (N (firstn (length t - 1) t)). rewrite <- E. unfold tail. symmetry. apply firstn_skipn. }
  split; [rewrite M; reflexivity|]. split; [rewrite M; unfold mkPathDir; rewrite T; reflexivity|]. split; [reflexivity|]. rewrite M.
  assert (U : exists u, upOf sep t u).
  { destruct (in_dec Z.eq_dec sep t) as [I|I]; [|exists []; left; auto].
    apply in_rev in I. destruct (in_split_first sep (rev t) I) as (a & b & E & F).
    exists (rev b). right. exists (rev a). split; [|rewrite <- in_rev; exact F].
    rewrite <- (rev_involutive t), E, rev_app_distr. cbn [rev]. rewrite <- app_assoc. reflexivity. }
  destruct U as [u U].
  destruct (path_parts sep (t ++ [sep]) t [] [] [] u [QPath; QName]) as [H _]; [split; [reflexivity|intros []]| |left; auto|exact U|exact H].
  intros [y E]. apply (f_equal (@rev Z)) in E. rewrite !rev_app_distr in E. cbn in E. congruence.
Qed.
Print Assumptions path_directory.
Example path_directory_ex : (forall y, tx "/a/b" <> y ++ [lnx])%list /\ asks lnx [QPath; QName] (mkPathDir lnx (tx "/a/b") true) = Ok [tx "/a/b"; []].
Proof. split; [|reflexivity]. intros y E. apply (f_equal (@rev Z)) in E. rewrite rev_app_distr in E. discriminate E. Qed.

(** C310: the file name of a path without a directory *)
Theorem path_filename_refuted :
  ~ (forall t, ~ In lnx t -> asks lnx [QName] (mkPath t) = Ok [t]) /\
  asks lnx [QPath; QName; QTitle; QExt] (mkPath (tx "file.txt")) = Ok [tx ""; tx "ile.txt"; tx "ile"; tx "txt"].
Proof.
  split; [|reflexivity]. intro H. specialize (H (tx "file.txt")).
  assert (N : ~ In lnx (tx "file.txt")) by (vm_compute; intuition discriminate). specialize (H N). vm_compute in H. discriminate H.
Qed.
Print Assumptions path_filename_refuted.

(** C311: a file whose name ends with two dots *)
Theorem path_dots_refuted :
  ~ (forall t d x, lastSep lnx t d x -> x <> dots -> asks lnx [QPath; QName] (mkPath t) = Ok [d; x]) /\
  asks lnx [QPath; QName] (mkPath (tx "/home/notes..")) = Ok [tx "/home/notes.."; tx ""].
Proof.
  split; [|reflexivity]. intro H. specialize (H (tx "/home/notes..") (tx "/home") (tx "notes..")).
  assert (N : lastSep lnx (tx "/home/notes..") (tx "/home") (tx "notes..")) by (split; [reflexivity|vm_compute; intuition discriminate]).
  assert (D : tx "notes.." <> dots) by discriminate.
  specialize (H N D). vm_compute in H. discriminate H.
Qed.
Print Assumptions path_dots_refuted.

(** C312: [parent] for results of earlier expressions and for names with two dots *)
Theorem path_parent_refuted :
  ~ (forall f e, loadPath lnx true e = Ok f -> forall g, loadPath lnx true (Parent (Base f)) = Ok g -> isFolder e = true ->
      place lnx (txt g) = removelast (place lnx (txt f))) /\
  loadPath lnx true (Parent (Base (mkPath (tx "/a/f")) /. tx "b")) = Ok (mkPath (tx "/a//")) /\
  loadPath lnx true (Parent (Base (mkPath (tx "/a//")))) = Ok (mkPath (tx "/a/")) /\
  (* /a/b/../c, two directories up *)
  loadPath lnx true (Parent (Parent (Base (mkPath (tx "/a/b/f")) /. tx "../c"))) = Ok (mkPath (tx "/a/b//")) /\
  place lnx (tx "/a/b//") = [tx "a"; tx "b"] /\
  whereTo lnx (fun _ => tx "/a/b") (Parent (Parent (Base (mkPath (tx "/a/b/f")) /. tx "../c"))) = [].
Proof.
  split; [|repeat split].
  intro H. specialize (H (mkPath (tx "/a//")) (Parent (Base (mkPath (tx "/a/f")) /. tx "b")) eq_refl (mkPath (tx "/a/")) eq_refl eq_refl).
  vm_compute in H. discriminate H.
Qed.
Print Assumptions path_parent_refuted.

(** C313: a default path reads an uninitialised member *)
Theorem path_default_refuted : forall sep nodrive h, asks sep [QPath] newPath = Undef /\ asks sep [QName] newPath = Undef /\
  loadPath sep nodrive (Parent (Base newPath)) = Undef /\
  (isAbs sep nodrive h || driveAbs sep h = false -> loadPath sep nodrive (Base newPath /. h) = Undef)%bool.
Proof.
  intros sep nd h. split; [reflexivity|]. split; [reflexivity|]. split; [reflexivity|].
  intro E. apply Bool.orb_false_iff in E. destruct E as [E1 E2]. unfold loadPath. cbn [pathLength calcParents]. rewrite E1, E2. reflexivity.
Qed.
Print Assumptions path_default_refuted.

(** C314: relative names with directories and names of the current drive in the configuration
    with drives (Windows) *)
Theorem path_windows_refuted :
  loadPath win false (Base (mkPath (tx "C:!app!f.exe")) /. tx "data!x.txt") = Ok (mkPath (tx "data!x.txt")) /\
  loadPath win false (Base (mkPath (tx "C:!app!f.exe")) /. tx "data" /. tx "x.txt") = Ok (mkPath (tx "C:!app!data!x.txt")) /\
  loadPath win false (Base (mkPath (tx "C:!app!f.exe")) /. tx "!data!x.txt") = Ok (mkPath (tx "!data!x.txt")).
Proof. repeat split. Qed.
Print Assumptions path_windows_refuted.
