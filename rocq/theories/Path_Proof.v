(** Lemmas about file paths. *)
From Coq Require Import ZArith Lia List Bool.
From Verif Require Import Common Path_Spec Path_Model.
Import ListNotations.
Local Open Scope Z_scope.

Lemma find_none c t : ~ In c t -> find c t = None.
Proof.
  induction t as [|d t IH]; intro N; cbn [find]; [reflexivity|]. cbn [In] in N.
  destruct (Z.eqb_spec d c) as [E|E]; [tauto|]. rewrite IH by tauto. reflexivity.
Qed.
Lemma find_some c x y : ~ In c x -> find c (x ++ c :: y) = Some (length x).
Proof.
  induction x as [|d x IH]; intro N; cbn [find app length].
  - rewrite Z.eqb_refl. reflexivity.
  - cbn [In] in N. destruct (Z.eqb_spec d c) as [E|E]; [tauto|]. rewrite IH by tauto. reflexivity.
Qed.
Lemma findLast_none c t : ~ In c t -> findLast c t = None.
Proof. intro N. unfold findLast. rewrite find_none; [reflexivity|]. rewrite <- in_rev. exact N. Qed.
Lemma findLast_some c x y : ~ In c y -> findLast c (x ++ c :: y) = Some (length x).
Proof.
  intro N. unfold findLast. rewrite rev_app_distr. cbn [rev]. rewrite <- app_assoc. cbn [app].
  rewrite find_some by (rewrite <- in_rev; exact N). f_equal. rewrite app_length, rev_length. cbn [length]. lia.
Qed.
Lemma head_app x y : head (x ++ y) (length x) = x.
Proof. unfold head. rewrite firstn_app, Nat.sub_diag, firstn_all. cbn [firstn]. apply app_nil_r. Qed.
Lemma offset_app x c y : offset (x ++ c :: y) (length x + 1) = y.
Proof. unfold offset. rewrite skipn_app, skipn_all2 by lia. cbn [app]. replace (length x + 1 - length x)%nat with 1%nat by lia. reflexivity. Qed.
Lemma teq_spec a b : teq a b = true <-> a = b.
Proof. unfold teq. destruct (list_eq_dec _ a b); split; congruence. Qed.
Lemma tail_dots t : teq (tail t 2) dots = true <-> endsWithDots t.
Proof.
  rewrite teq_spec. unfold tail, endsWithDots. split.
  - intro E. exists (firstn (length t - 2) t). rewrite <- E. symmetry. apply firstn_skipn.
  - intros [y ->]. rewrite app_length. change (length dots) with 2%nat. replace (length y + 2 - 2)%nat with (length y) by lia.
    rewrite skipn_app, skipn_all, Nat.sub_diag. reflexivity.
Qed.

(** ** Pieces *)
Definition nosep (sep : Z) (p : list Z) : Prop := ~ In sep p.
Definition ajoin (sep : Z) (ps : list (list Z)) : list Z := flat_map (cons sep) ps.
Definition jn (sep : Z) (ps : list (list Z)) : list Z := match ps with [] => [] | p :: r => p ++ ajoin sep r end.

Lemma pieces_nosep sep a : nosep sep a -> pieces sep a = [a].
Proof.
  unfold nosep. induction a as [|c a IH]; intro N; cbn [pieces]; [reflexivity|]. cbn [In] in N.
  destruct (Z.eqb_spec c sep) as [E|E]; [tauto|]. rewrite IH by tauto. reflexivity.
Qed.
Lemma pieces_app sep a b : pieces sep (a ++ sep :: b) = pieces sep a ++ pieces sep b.
Proof.
  induction a as [|c a IH]; cbn [pieces app].
  - rewrite Z.eqb_refl. reflexivity.
  - destruct (c =? sep); [cbn [app]; congruence|]. rewrite IH. destruct (pieces sep a) as [|p ps] eqn:E; [|reflexivity].
    destruct a as [|d a]; cbn [pieces] in E; [discriminate|]. destruct (d =? sep); [discriminate|]. destruct (pieces sep a); discriminate.
Qed.
Lemma pieces_inv sep t : t = jn sep (pieces sep t) /\ Forall (nosep sep) (pieces sep t) /\ pieces sep t <> [].
Proof.
  induction t as [|c t (E & F & N)]; cbn [pieces].
  - split; [reflexivity|]. split; [|discriminate]. constructor; [intros []|constructor].
  - destruct (Z.eqb_spec c sep) as [->|D].
    + split; [|split; [|discriminate]].
      * cbn [jn app]. destruct (pieces sep t) as [|p ps]; [congruence|]. cbn [ajoin flat_map app]. cbn [jn] in E. rewrite E at 1. reflexivity.
      * constructor; [intros []|exact F].
    + destruct (pieces sep t) as [|p ps]; [congruence|]. split; [|split; [|discriminate]].
      * cbn [jn app] in *. congruence.
      * inversion_clear F as [|? ? F1 F2]. constructor; [|exact F2]. unfold nosep in *. cbn [In]. intros [X|X]; [congruence|tauto].
Qed.
Lemma pieces_ajoin sep ps : Forall (nosep sep) ps -> forall p, nosep sep p -> pieces sep (p ++ ajoin sep ps) = p :: ps.
Proof.
  induction 1 as [|q ps Q F IH]; intros p P; cbn [ajoin flat_map].
  - rewrite app_nil_r. apply pieces_nosep, P.
  - change ((sep :: q) ++ flat_map (cons sep) ps) with (sep :: q ++ ajoin sep ps). rewrite pieces_app, pieces_nosep by exact P.
    rewrite IH by exact Q. reflexivity.
Qed.

Lemma walk_good ps : Forall good ps -> forall a, fold_left walk ps a = a ++ ps.
Proof.
  induction 1 as [|p ps (A & B & C) F IH]; intro a; cbn [fold_left]; [symmetry; apply app_nil_r|].
  rewrite IH. unfold walk. destruct (list_eq_dec _ p []); [congruence|]. destruct (list_eq_dec _ p dot); [congruence|].
  destruct (list_eq_dec _ p dots); [congruence|]. rewrite <- app_assoc. reflexivity.
Qed.
Lemma walk_empty a : walk a [] = a.
Proof. reflexivity. Qed.
Lemma place_ajoin sep ps : Forall (nosep sep) ps -> Forall good ps -> place sep (ajoin sep ps) = ps.
Proof.
  intros N G. unfold place. change (ajoin sep ps) with ([] ++ ajoin sep ps). rewrite pieces_ajoin; [|exact N|intros []].
  cbn [fold_left]. rewrite walk_empty, walk_good by exact G. reflexivity.
Qed.
Lemma place_jn sep ps : Forall (nosep sep) ps -> Forall good ps -> forall a, fold_left walk (pieces sep (jn sep ps)) a = a ++ ps.
Proof.
  intros N G a. destruct ps as [|p ps]; cbn [jn].
  - cbn. symmetry. apply app_nil_r.
  - inversion N; subst. rewrite pieces_ajoin by assumption. apply walk_good, G.
Qed.
Lemma place_join sep w j : place sep (w ++ sep :: j) = fold_left walk (pieces sep j) (place sep w).
Proof. unfold place. rewrite pieces_app, fold_left_app. reflexivity. Qed.

(** ** Parents *)
Lemma ajoin_snoc sep ps x : ajoin sep (ps ++ [x]) = ajoin sep ps ++ sep :: x.
Proof. unfold ajoin. rewrite flat_map_app. cbn [flat_map]. rewrite app_nil_r. reflexivity. Qed.
Lemma jn_snoc sep ps x : ps <> [] -> jn sep (ps ++ [x]) = jn sep ps ++ sep :: x.
Proof. destruct ps as [|p ps]; [congruence|]. intros _. cbn [jn app]. rewrite ajoin_snoc, app_assoc. reflexivity. Qed.

Lemma firstn_snoc {A} (l : list A) x k : (k <= length l)%nat -> firstn k (l ++ [x]) = firstn k l.
Proof. intro L. rewrite firstn_app. replace (k - length l)%nat with 0%nat by lia. cbn [firstn]. apply app_nil_r. Qed.

Definition solid (sep : Z) (p : list Z) : Prop := p <> [] /\ nosep sep p.
Lemma calc_rel sep abs p : forall ps, Forall (solid sep) ps ->
  calcParents sep (jn sep ps) p abs = (jn sep (firstn (length ps - p) ps), if abs then O else (p - length ps)%nat).
Proof.
  induction p as [|p IH]; intros ps F.
  - cbn [calcParents]. rewrite Nat.sub_0_r, firstn_all. destruct abs; reflexivity.
  - destruct ps as [|x ps _] using rev_ind; [reflexivity|].
    apply Forall_app in F. destruct F as [F1 F2]. inversion_clear F2 as [|? ? [X1 X2] _].
    assert (S : calcParents sep (jn sep (ps ++ [x])) (S p) abs = calcParents sep (jn sep ps) p abs).
    { destruct ps as [|q ps].
      - cbn [app jn ajoin flat_map]. rewrite app_nil_r. cbn [calcParents]. destruct x as [|c x]; [congruence|].
        rewrite findLast_none by exact X2. reflexivity.
      - rewrite jn_snoc by discriminate. cbn [calcParents].
        rewrite findLast_some by exact X2. rewrite head_app. destruct (jn sep (q :: ps)); reflexivity. }
    rewrite S, IH by exact F1. rewrite app_length. cbn [length]. f_equal.
    + f_equal. rewrite firstn_snoc by lia. f_equal. lia.
    + destruct abs; [reflexivity|lia].
Qed.
Lemma calc_abs sep p : forall ps, Forall (solid sep) ps ->
  calcParents sep (ajoin sep ps) p true = (ajoin sep (firstn (length ps - p) ps), O).
Proof.
  induction p as [|p IH]; intros ps F.
  - cbn [calcParents]. rewrite Nat.sub_0_r, firstn_all. reflexivity.
  - destruct ps as [|x ps _] using rev_ind; [reflexivity|].
    apply Forall_app in F. destruct F as [F1 F2]. inversion_clear F2 as [|? ? [X1 X2] _].
    rewrite ajoin_snoc. cbn [calcParents]. rewrite findLast_some by exact X2. rewrite head_app.
    rewrite app_length. cbn [length]. rewrite firstn_snoc by lia. replace (length ps + 1 - S p)%nat with (length ps - p)%nat by lia.
    destruct (ajoin sep ps ++ sep :: x) eqn:E; [apply app_eq_nil in E; destruct E; discriminate|]. apply IH, F1.
Qed.

Lemma driveAbs_absolute sep h : driveAbs sep h = absolute sep h.
Proof. unfold driveAbs, absolute. destruct h as [|c h]; [reflexivity|]. cbn [find]. destruct (c =? sep); [reflexivity|]. destruct (find sep h); reflexivity. Qed.

Lemma clean_inv sep h : cleanRel sep h -> exists ps, h = jn sep ps /\ ps <> [] /\ Forall (nosep sep) ps /\ Forall good ps /\ pieces sep h = ps.
Proof. intro C. destruct (pieces_inv sep h) as (A & B & D). exists (pieces sep h). auto. Qed.
Lemma solid_of sep ps : Forall (nosep sep) ps -> Forall good ps -> Forall (solid sep) ps.
Proof. intros A B. rewrite Forall_forall in *. intros p I. split; [apply (B p I)|apply (A p I)]. Qed.
Lemma cleanAbs_inv sep h : cleanAbs sep h -> exists ps, h = ajoin sep ps /\ ps <> [] /\ Forall (nosep sep) ps /\ Forall good ps.
Proof.
  intros (t & -> & C). destruct (clean_inv sep t C) as (ps & E & N & A & B & _). exists ps. split; [|auto].
  destruct ps as [|p ps]; [congruence|]. rewrite E. reflexivity.
Qed.
Lemma rel_not_abs sep ps : Forall (solid sep) ps -> absolute sep (jn sep ps) = false.
Proof.
  destruct ps as [|p ps]; [reflexivity|]. intro F. inversion_clear F as [|? ? [A B] _]. destruct p as [|c p]; [congruence|].
  cbn [jn app absolute]. unfold nosep in B. cbn [In] in B. destruct (Z.eqb_spec c sep); [tauto|reflexivity].
Qed.
Lemma Forall_firstn {A} (P : A -> Prop) n l : Forall P l -> Forall P (firstn n l).
Proof. intro F. rewrite <- (firstn_skipn n l) in F. apply Forall_app in F. tauto. Qed.

(** ** The directory of a path *)
Lemma getPath_dir sep f d x : pos f = Null -> ~ endsWithDots (txt f) -> lastSep sep (txt f) d x ->
  exists g, getPath sep f = Ok (d, g).
Proof.
  intros P N (E & I). unfold getPath. destruct (teq (tail (txt f) 2) dots) eqn:T; [apply tail_dots in T; contradiction|].
  rewrite P, E, findLast_some, head_app by exact I. eauto.
Qed.

Definition cleanDir (sep : Z) (d : list Z) : Prop := d = [] \/ cleanAbs sep d.
Lemma firstn_firstn_sub {A} (l : list A) a : firstn (length l - S a) l = firstn (length (removelast l) - a) (removelast l).
Proof.
  destruct l as [|x l _] using rev_ind; [reflexivity|]. rewrite removelast_last, app_length. cbn [length].
  rewrite firstn_snoc by lia. f_equal. lia.
Qed.
Lemma write_clean sep d (e : expr fp) : (exists g, getPath sep (base e) = Ok (d, g)) -> cleanDir sep d ->
  names (fun h => cleanRel sep h \/ cleanAbs sep h) e -> forall s,
  let W := whereTo sep (fun _ => d) e in
  exists w, writePath sep true e s = Ok (w, O) /\ place sep w = firstn (length W - s) W.
Proof.
  intros B D. induction e as [f|e IH h|e IH|e IH]; intros N s; cbn [base whereTo names writePath] in *.
  - destruct B as [g B]. rewrite B. cbn [obind].
    assert (X : exists ps, d = ajoin sep ps /\ Forall (nosep sep) ps /\ Forall good ps).
    { destruct D as [D|D]; [exists []; auto|]. apply cleanAbs_inv in D. destruct D as (ps & A & _ & C). exists ps. tauto. }
    destruct X as (ps & -> & X1 & X2). rewrite calc_abs by (apply solid_of; assumption).
    rewrite place_ajoin by assumption. eexists. split; [reflexivity|]. apply place_ajoin; apply Forall_firstn; assumption.
  - destruct N as [N1 N2]. unfold isAbs. rewrite driveAbs_absolute. destruct N1 as [N1|N1].
    + apply clean_inv in N1. destruct N1 as (ps & -> & X0 & X1 & X2 & X3). pose proof (solid_of sep ps X1 X2) as S.
      rewrite rel_not_abs by exact S. cbn [orb]. rewrite calc_rel by exact S. rewrite X3, walk_good by exact X2.
      destruct (IH B N2 (s - length ps)%nat) as (w & E & P). rewrite E. cbn [obind]. eexists. split; [reflexivity|].
      cbn [app]. rewrite place_join, P, place_jn by (apply Forall_firstn; assumption).
      set (W := whereTo sep (fun _ => d) e). rewrite firstn_app, app_length.
      destruct (Nat.le_gt_cases s (length ps)) as [L|L].
      * replace (length W - (s - length ps))%nat with (length W) by lia. rewrite firstn_all.
        f_equal; [symmetry; apply firstn_all2; lia|]. f_equal. lia.
      * replace (length ps - s)%nat with 0%nat by lia. cbn [firstn].
        replace (length W + length ps - s - length W)%nat with 0%nat by lia. cbn [firstn]. f_equal. f_equal. lia.
    + apply cleanAbs_inv in N1. destruct N1 as (ps & -> & X0 & X1 & X2).
      assert (A : absolute sep (ajoin sep ps) = true) by (destruct ps; [congruence|]; cbn; apply Z.eqb_refl).
      rewrite A. cbn [orb]. rewrite calc_abs by (apply solid_of; assumption). rewrite place_ajoin by assumption.
      eexists. split; [reflexivity|]. apply place_ajoin; apply Forall_firstn; assumption.
  - destruct (IH B N (S s)) as (w & E & P). rewrite E. cbn [obind]. eexists. split; [reflexivity|]. rewrite P. apply firstn_firstn_sub.
  - apply IH; assumption.
Qed.

(** ** The size of the buffer *)
Lemma calc_true sep p : forall z, snd (calcParents sep z p true) = O.
Proof. induction p as [|p IH]; intro z; cbn [calcParents]; [reflexivity|]. destruct z; [reflexivity|]. apply IH. Qed.
Lemma calc_snd sep z p w s : calcParents sep z p true = (w, s) -> s = O.
Proof. intro E. pose proof (calc_true sep p z) as H. rewrite E in H. exact H. Qed.

Lemma length_write sep nd (e : expr fp) : forall s,
  match writePath sep nd e s with
  | Ok (w, s') => pathLength sep nd e s = Ok (length w, s') /\ s' = O
  | Undef => pathLength sep nd e s = Undef /\ pos (base e) = Unset
  | _ => False
  end.
Proof.
  induction e as [f|e IH h|e IH|e IH]; intro s; cbn [writePath pathLength base].
  - unfold getPath. destruct (teq _ _); [|destruct (pos f) eqn:P; [|destruct (findLast sep (txt f))|]]; cbn [obind]; auto;
    match goal with |- context [calcParents ?a ?b ?c ?d] => destruct (calcParents a b c d) eqn:E end; apply calc_snd in E; auto.
  - destruct (calcParents sep h s (isAbs sep nd h || driveAbs sep h)) as [p s'] eqn:C.
    destruct (isAbs sep nd h); [split; [reflexivity|apply calc_snd in C; exact C]|].
    destruct (driveAbs sep h).
    + split; [rewrite !app_length; cbn [length]; f_equal; f_equal; lia|apply calc_snd in C; exact C].
    + specialize (IH s'). destruct (writePath sep nd e s') as [[w s2]| | |]; try contradiction; destruct IH as [E1 E2]; rewrite E1; cbn [obind]; auto.
      split; [rewrite app_length; cbn [length app]; f_equal; f_equal; lia|exact E2].
  - specialize (IH (S s)). destruct (writePath sep nd e (S s)) as [[w s2]| | |]; try contradiction; destruct IH as [E1 E2]; rewrite E1; cbn [obind]; auto.
    subst s2. auto.
  - apply IH.
Qed.
Lemma load_write sep nd e w : writePath sep nd e O = Ok (w, O) ->
  loadPath sep nd e = Ok (mkPath (if isFolder e then w ++ [sep] else w)).
Proof.
  intro E. unfold loadPath. pose proof (length_write sep nd e O) as L. rewrite E in L. destruct L as [L _]. rewrite L. cbn [obind]. rewrite E. cbn [obind].
  destruct (isFolder e); [rewrite app_length; cbn [length]|]; rewrite Nat.ltb_irrefl; reflexivity.
Qed.

Lemma write_joined sep d (e : expr fp) : (exists g, getPath sep (base e) = Ok (d, g)) -> forall t,
  joined sep (fun _ => d) e = Some t -> writePath sep true e O = Ok (t, O).
Proof.
  intro B. induction e as [f|e IH h|e IH|e IH]; intros t J; cbn [base joined writePath] in *.
  - destruct B as [g B]. rewrite B. cbn. congruence.
  - cbn [calcParents]. unfold isAbs. rewrite driveAbs_absolute. destruct (absolute sep h); [congruence|]. cbn [orb].
    destruct (joined sep (fun _ => d) e) as [u|]; [|discriminate]. rewrite (IH B u eq_refl). cbn [obind app]. congruence.
  - discriminate.
  - apply IH; assumption.
Qed.

(** ** Queries *)
Lemma titleExt_ok n a b : titleExt n a b ->
  (match findLast 46 n with None => n | Some p => head n p end) = a /\
  (match findLast 46 n with None => [] | Some p => offset n (p + 1) end) = b.
Proof.
  intros [(N & -> & ->)|(-> & N)].
  - rewrite findLast_none by exact N. auto.
  - rewrite findLast_some by exact N. rewrite head_app, offset_app. auto.
Qed.
Lemma upOf_ok sep d u : upOf sep d u -> match findLast sep d with None => [] | Some n => head d n end = u.
Proof.
  intros [(N & ->)|(y & -> & N)].
  - rewrite findLast_none by exact N. reflexivity.
  - rewrite findLast_some, head_app by exact N. reflexivity.
Qed.
Lemma ask_ok sep t d x a b u : lastSep sep t d x -> ~ endsWithDots t -> titleExt x a b -> upOf sep d u -> forall q c,
  (c = Null \/ c = At (length d)) ->
  exists c', ask sep q (mkF t c) = Ok (match q with QPath => d | QName => x | QTitle => a | QExt => b | QParent => u end, mkF t c') /\
    (c' = Null \/ c' = At (length d)).
Proof.
  intros (E & I) N T U q c C.
  assert (P : getPath sep (mkF t c) = Ok (d, mkF t (At (length d)))).
  { unfold getPath. cbn [txt pos]. destruct (teq (tail t 2) dots) eqn:Q; [apply tail_dots in Q; contradiction|].
    destruct C; subst c; rewrite E, ?findLast_some, head_app by exact I; reflexivity. }
  exists (At (length d)). split; [|auto].
  destruct (titleExt_ok x a b T) as [T1 T2]. pose proof (upOf_ok sep d u U) as U1.
  assert (F : getFilename sep (mkF t c) = Ok (x, mkF t (At (length d)))).
  { unfold getFilename. rewrite P. cbn [obind txt]. rewrite E, offset_app. reflexivity. }
  destruct q; cbn [ask]; [exact P|exact F| | |].
  - unfold getTitle. rewrite F. cbn [obind]. rewrite T1. reflexivity.
  - unfold getExtension. rewrite F. cbn [obind]. rewrite T2. reflexivity.
  - unfold getParentPath. rewrite P. cbn [obind]. rewrite U1. reflexivity.
Qed.

Lemma in_split_first (c : Z) t : In c t -> exists a b, t = a ++ c :: b /\ ~ In c a.
Proof.
  induction t as [|d t IH]; intro I; [destruct I|]. destruct (Z.eq_dec d c) as [E|E].
  - subst d. exists [], t. split; [reflexivity|intros []].
  - destruct I as [I|I]; [congruence|]. destruct (IH I) as (a & b & -> & N). exists (d :: a), b. split; [reflexivity|]. cbn [In]. tauto.
Qed.
