(** Proofs about thread hooks. *)
From Verif Require Import Common Hook_Spec Hook_Model.

(** the hooks from [p] on are [l] *)
Fixpoint path (m : nat -> option hook) (p : option nat) (l : list nat) : Prop :=
  match l with
  | [] => p = None
  | h :: l' => p = Some h /\ exists n, m h = Some (mkHook true n) /\ path m n l'
  end.

Definition inv (s : st) (a : nat -> bool) (l : list nat) : Prop :=
  path (mem s) (chain s) l /\ NoDup l /\
  (forall h, a h = match mem s h with Some _ => true | None => false end) /\
  (forall h x, mem s h = Some x -> installed x = true -> In h l).

Lemma path_frame m m' : forall l p, path m p l -> (forall h, In h l -> m' h = m h) -> path m' p l.
Proof.
  induction l as [|h l IH]; intros p P F; cbn in *; auto.
  destruct P as (-> & n & E & P). split; auto. exists n. split; [rewrite F; auto|]. apply IH; auto.
Qed.

Lemma path_in m : forall l p h, path m p l -> In h l -> exists n, m h = Some (mkHook true n).
Proof.
  induction l as [|x l IH]; intros p h P I; [destruct I|]. destruct P as (_ & n & E & P). destruct I as [ -> |I]; eauto.
Qed.

Lemma existsb_in h l : existsb (Nat.eqb h) l = true <-> In h l.
Proof.
  rewrite existsb_exists. split; [intros (x & I & E); apply Nat.eqb_eq in E; subst; auto|].
  intros I. exists h. rewrite Nat.eqb_refl. auto.
Qed.

Lemma without_notin h l : ~ In h l -> without h l = l.
Proof.
  induction l as [|x l IH]; cbn; auto. intros N. destruct (Nat.eqb_spec x h); [subst; tauto|].
  cbn. f_equal. apply IH. tauto.
Qed.
Lemma without_in h l x : In x (without h l) <-> In x l /\ x <> h.
Proof. unfold without. rewrite filter_In. destruct (Nat.eqb_spec x h); cbn; intuition congruence. Qed.
Lemma without_nodup h l : NoDup l -> NoDup (without h l).
Proof. apply NoDup_filter. Qed.
Lemma without_length h l : length (without h l) <= length l.
Proof. unfold without. induction l as [|x l IH]; cbn; auto. destruct (negb _); cbn; lia. Qed.

(** the predecessor of an installed hook *)
Lemma before_ok s h : forall l c f, path (mem s) (Some c) l -> NoDup l -> In h l -> c <> h -> length l <= f ->
  exists p l1 l2 n nh, before f c h s = Ok p /\ l = l1 ++ p :: h :: l2 /\
    mem s p = Some (mkHook true (Some h)) /\ mem s h = Some (mkHook true nh) /\ path (mem s) nh l2 /\ n = nh.
Proof.
  induction l as [|x l IH]; intros c f P N I D L; [destruct I|].
  cbn [path] in P. destruct P as (E & n & M & P). injection E as <-.
  destruct f as [|f]; cbn in L; [lia|]. cbn [before]. rewrite M. cbn [next].
  destruct I as [I|I]; [congruence|].
  destruct l as [|y l]; [destruct I|]. cbn [path] in P. pose proof P as P0. destruct P as (-> & ny & My & P).
  destruct (Nat.eqb_spec y h) as [ -> |Ny].
  - exists c, [], l, ny, ny. repeat split; auto.
  - inversion N; subst.
    destruct (IH y f) as (p & l1 & l2 & n' & nh & A & B & C); auto; [cbn [length] in *; lia|].
    exists p, (c :: l1), l2, n', nh. split; auto. split; auto. rewrite B. reflexivity.
Qed.

Lemma path_split m : forall l1 p q l2, path m p (l1 ++ q :: l2) ->
  exists n, m q = Some (mkHook true n) /\ path m n l2.
Proof.
  induction l1 as [|x l1 IH]; intros p q l2 P; cbn in P; destruct P as (_ & n & E & P); eauto.
Qed.

(** relinking: the hook before points behind the removed one *)
Lemma path_relink m m' q n l2 : forall l1 p h, path m p (l1 ++ q :: h :: l2) ->
  (forall x, In x l1 -> m' x = m x) -> m' q = Some (mkHook true n) -> path m' n l2 ->
  path m' p (l1 ++ q :: l2).
Proof.
  induction l1 as [|x l1 IH]; intros p h P F Q P2; cbn in P |- *; destruct P as (-> & k & E & P); split; auto.
  - exists n. split; auto.
  - exists k. split; [rewrite F; auto; left; auto|]. eapply IH; eauto. intros y Hy. apply F. right; auto.
Qed.

Lemma without_app h l1 l2 : without h (l1 ++ l2) = without h l1 ++ without h l2.
Proof. apply filter_app. Qed.

Lemma uninstall_ok f s a l h : inv s a l -> a h = true -> length l <= f ->
  exists s', uninstall f h s = Ok s' /\ inv s' a (without h l) /\
    exists x, mem s' h = Some x /\ installed x = false.
Proof.
  intros (P & N & A & Z) Ah L. unfold uninstall. rewrite A in Ah. destruct (mem s h) as [x|] eqn:M; [|discriminate].
  destruct (installed x) eqn:I; cbn [negb].
  2:{ exists s. split; auto. split; [|eauto]. rewrite without_notin; [repeat split; auto|].
      intros H. destruct (path_in _ _ _ _ P H) as (n & E). rewrite E in M. injection M as <-. discriminate I. }
  pose proof (Z h x M I) as IN.
  destruct l as [|c l]; [destruct IN|]. pose proof P as PP. cbn [path] in P. destruct P as (E & n & Mc & P). rewrite E.
  destruct (Nat.eqb_spec c h) as [ -> |D].
  - assert (X : x = mkHook true n) by congruence. subst x. cbn [next].
    inversion N as [|? ? N1 N2]; subst.
    eexists. split; [reflexivity|]. split; [split; [|split; [|split]]|].
    + unfold without. cbn [filter]. rewrite Nat.eqb_refl. cbn [negb]. fold (without h l). rewrite without_notin by auto.
      cbn [set setChain mem chain]. eapply path_frame; eauto. intros y Hy. cbn.
      destruct (Nat.eqb_spec y h); [subst; tauto|auto].
    + apply without_nodup; auto.
    + intros y. cbn. rewrite A. destruct (Nat.eqb_spec y h); [subst; rewrite M|]; auto.
    + intros y z. cbn [set setChain mem chain]. destruct (Nat.eqb_spec y h).
      * intros Q. injection Q as <-. discriminate.
      * intros Q J. apply without_in. split; eauto.
    + cbn. rewrite Nat.eqb_refl. eauto.
  - destruct (before_ok s h (c :: l) c f) as (p & l1 & l2 & n' & nh & B & EQ & Mp & Mh & P2 & _); auto.
    { rewrite <- E. exact PP. }
    rewrite B. cbn [obind]. rewrite Mp. cbn [installed].
    assert (X : x = mkHook true nh) by congruence. subst x. cbn [next].
    rewrite EQ in N, PP, Z |- *.
    assert (NN := N). apply NoDup_remove in N. destruct N as (N1 & N2).
    assert (Dp : p <> h). { intros ->. apply N2. apply in_app_iff. right. left. auto. }
    assert (NH : ~ In h l1 /\ ~ In h l2).
    { replace (l1 ++ p :: h :: l2) with ((l1 ++ [p]) ++ h :: l2) in NN by (rewrite <- app_assoc; reflexivity).
      apply NoDup_remove in NN. destruct NN as (_ & NN). rewrite !in_app_iff in NN. cbn in NN. tauto. }
    assert (W : without h (l1 ++ p :: h :: l2) = l1 ++ p :: l2).
    { rewrite without_app. cbn. rewrite Nat.eqb_refl. destruct (Nat.eqb_spec p h); [congruence|]. cbn.
      fold (without h l2). rewrite !without_notin by tauto. reflexivity. }
    rewrite in_app_iff in N2. cbn in N2.
    eexists. split; [reflexivity|]. split; [split; [|split; [|split]]|].
    + rewrite W. cbn [set mem chain]. apply (path_relink (mem s) _ p nh l2 l1 (chain s) h); auto.
      * intros y Hy. destruct (Nat.eqb_spec y h); [subst; tauto|]. destruct (Nat.eqb_spec y p); [subst; tauto|auto].
      * destruct (Nat.eqb_spec p h); [congruence|]. rewrite Nat.eqb_refl. auto.
      * eapply path_frame; eauto. intros y Hy. destruct (Nat.eqb_spec y h); [subst; tauto|].
        destruct (Nat.eqb_spec y p); [subst; tauto|auto].
    + apply without_nodup; auto.
    + intros y. cbn. rewrite A. destruct (Nat.eqb_spec y h); [subst; rewrite M|]; auto.
      destruct (Nat.eqb_spec y p); [subst; rewrite Mp|]; auto.
    + intros y z. cbn [set setChain mem chain]. destruct (Nat.eqb_spec y h).
      * intros Q. injection Q as <-. discriminate.
      * destruct (Nat.eqb_spec y p).
        -- intros _ _. subst. apply without_in. split; auto. apply in_app_iff. right. left. auto.
        -- intros Q J. apply without_in. split; eauto.
    + cbn. rewrite Nat.eqb_refl. eauto.
Qed.

Lemma step_ok f s a l o : inv s a l ->
  match o with New h => a h = false | Install h | Uninstall h | Delete h => a h = true end -> length l <= f ->
  exists s', match o with
             | New h => new h s
             | Install h => install h s
             | Uninstall h => uninstall f h s
             | Delete h => destroy f h s
             end = Ok s' /\ inv s' (alive1 a o) (hooks1 l o) /\ length (hooks1 l o) <= S (length l).
Proof.
  intros V Ah L. pose proof V as (P & N & A & Z). destruct o as [h|h|h|h]; cbn [alive1 hooks1].
  - assert (NI : ~ In h l). { intros I. destruct (path_in _ _ _ _ P I) as (n & E). rewrite A, E in Ah. discriminate. }
    eexists. split; [reflexivity|]. split; [|lia]. split; [|split; [|split]]; auto.
    + cbn. eapply path_frame; eauto. intros y Hy. cbn. destruct (Nat.eqb_spec y h); [subst; tauto|auto].
    + intros y. cbn. destruct (y =? h); auto.
    + intros y x. cbn. destruct (Nat.eqb_spec y h); [intros Q; injection Q as <-; discriminate|eauto].
  - unfold install. rewrite A in Ah. destruct (mem s h) as [x|] eqn:M; [|discriminate].
    destruct (installed x) eqn:I.
    + exists s. rewrite (proj2 (existsb_in h l)) by eauto. split; auto.
    + assert (NI : ~ In h l). { intros H. destruct (path_in _ _ _ _ P H) as (n & E). rewrite E in M. injection M as <-. discriminate I. }
      destruct (existsb (Nat.eqb h) l) eqn:X; [apply existsb_in in X; tauto|].
      eexists. split; [reflexivity|]. split; [|cbn; lia]. split; [|split; [|split]].
      * cbn. split; auto. exists (chain s). rewrite Nat.eqb_refl. split; auto. eapply path_frame; eauto.
        intros y Hy. cbn. destruct (Nat.eqb_spec y h); [subst; tauto|auto].
      * constructor; auto.
      * intros y. cbn. rewrite A. destruct (Nat.eqb_spec y h); [subst; rewrite M|]; auto.
      * intros y z. cbn [set setChain mem chain]. destruct (Nat.eqb_spec y h); [subst; left; auto|right; eauto].
  - destruct (uninstall_ok f s a l h V Ah L) as (s' & E & V' & _). exists s'. split; auto. split; auto.
    pose proof (without_length h l). lia.
  - unfold destroy. rewrite A in Ah. destruct (mem s h) as [x|] eqn:M; [|discriminate].
    assert (K : exists s1, (if installed x then uninstall f h s else Ok s) = Ok s1 /\ inv s1 a (without h l)).
    { destruct (installed x) eqn:I.
      - destruct (uninstall_ok f s a l h V) as (s' & E & V' & _); auto; [rewrite A, M; auto|]. eauto.
      - exists s. split; auto. rewrite without_notin; auto. intros H.
        destruct (path_in _ _ _ _ P H) as (n & E). rewrite E in M. injection M as <-. discriminate I. }
    destruct K as (s1 & E & P1 & N1 & A1 & Z1). rewrite E. cbn [obind].
    eexists. split; [reflexivity|]. split; [|pose proof (without_length h l); lia]. split; [|split; [|split]]; auto.
    + cbn. eapply path_frame; eauto. intros y Hy. apply without_in in Hy. cbn. destruct (Nat.eqb_spec y h); [tauto|auto].
    + intros y. cbn. rewrite A1. destruct (y =? h); auto.
    + intros y z. cbn [set setChain mem chain]. destruct (Nat.eqb_spec y h); [discriminate|eauto].
Qed.

Lemma run_ok : forall ops f s a l, inv s a l -> valid a ops -> length ops + length l <= f ->
  exists s', run f ops s = Ok s' /\ inv s' (fold_left alive1 ops a) (fold_left hooks1 ops l) /\
    length (fold_left hooks1 ops l) <= length ops + length l.
Proof.
  induction ops as [|o ops IH]; intros f s a l V W L; cbn [run fold_left length] in *; [eauto|].
  destruct W as (W1 & W2). destruct (step_ok f s a l o V W1) as (s1 & E & V1 & L1); [lia|].
  rewrite E. cbn [obind]. destruct (IH f s1 _ _ V1 W2) as (s' & E' & V' & L'); [lia|].
  exists s'. split; auto. split; auto. lia.
Qed.

Lemma inv_init : inv init (fun _ => false) [].
Proof. repeat split; cbn; auto. constructor. intros; discriminate. Qed.

(** ** the calls *)
Lemma callExc_ok s : forall l p f, path (mem s) p l -> length l < f -> callExc f p s = Ok (map EExc l).
Proof.
  induction l as [|h l IH]; intros p f P L; destruct f as [|f]; cbn in L; try lia; cbn in P.
  - subst. reflexivity.
  - destruct P as ( -> & n & E & P). cbn [callExc]. rewrite E. cbn [next]. rewrite IH; auto. lia.
Qed.

Section Calls.
Variable throws : nat -> bool.

Lemma callExit_all s : forall l p f, path (mem s) p l -> length l < f -> (forall h, In h l -> throws h = false) ->
  callExit throws f p s = Ok (map EExit l, false).
Proof.
  induction l as [|h l IH]; intros p f P L T; destruct f as [|f]; cbn in L; try lia; cbn in P.
  - subst. reflexivity.
  - destruct P as ( -> & n & E & P). cbn [callExit]. rewrite E. cbn [next]. rewrite T by (left; auto).
    rewrite IH; auto; [lia|]. intros; apply T; right; auto.
Qed.

Lemma callExit_throw s h l2 : throws h = true -> forall l1 p f, path (mem s) p (l1 ++ h :: l2) -> length (l1 ++ h :: l2) < f ->
  (forall x, In x l1 -> throws x = false) ->
  callExit throws f p s = Ok (map EExit l1 ++ EExit h :: map EExc l2, true).
Proof.
  intros Th. induction l1 as [|x l1 IH]; intros p f P L T; destruct f as [|f]; cbn in L; try lia; cbn in P;
    destruct P as ( -> & n & E & P); cbn [callExit]; rewrite E; cbn [next].
  - rewrite Th. rewrite (callExc_ok s l2); auto. lia.
  - rewrite T by (left; auto). rewrite IH; auto; [lia|]. intros; apply T; right; auto.
Qed.

Lemma callInit_all s : forall l p f, path (mem s) p l -> length l < f -> (forall h, In h l -> throws h = false) ->
  callInit throws f p s = Ok (map EInit (rev l), false).
Proof.
  induction l as [|h l IH]; intros p f P L T; destruct f as [|f]; cbn in L; try lia; cbn in P.
  - subst. reflexivity.
  - destruct P as ( -> & n & E & P). cbn [callInit]. rewrite E. cbn [next].
    rewrite IH; auto; [|lia|intros; apply T; right; auto]. cbn [obind fst snd]. rewrite T by (left; auto).
    cbn [rev]. rewrite map_app. reflexivity.
Qed.

Lemma callInit_throw s h l2 : throws h = true -> (forall x, In x l2 -> throws x = false) ->
  forall l1 p f, path (mem s) p (l1 ++ h :: l2) -> length (l1 ++ h :: l2) < f ->
  callInit throws f p s = Ok (map EInit (rev l2) ++ EInit h :: map EExc (rev l1), true).
Proof.
  intros Th T. induction l1 as [|x l1 IH]; intros p f P L; destruct f as [|f]; cbn in L; try lia; cbn in P;
    destruct P as ( -> & n & E & P); cbn [callInit]; rewrite E; cbn [next].
  - rewrite (callInit_all s l2); auto; [|lia]. cbn [obind fst snd]. rewrite Th. reflexivity.
  - rewrite IH; auto; [|lia]. cbn [obind fst snd]. rewrite <- app_assoc. cbn [rev]. rewrite map_app. reflexivity.
Qed.
End Calls.

Lemma hooks_state ops f : valid (fun _ => false) ops -> length ops < f ->
  exists s, run f ops init = Ok s /\ path (mem s) (chain s) (hooks ops) /\ length (hooks ops) < f /\
    inv s (fold_left alive1 ops (fun _ => false)) (hooks ops).
Proof.
  intros V L. destruct (run_ok ops f init _ _ inv_init V) as (s & E & I & Q); cbn; [lia|].
  exists s. split; auto. split; [apply I|]. split; auto. unfold hooks. cbn in Q. lia.
Qed.
