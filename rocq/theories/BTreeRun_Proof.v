(** Proofs about the B-tree: iteration, and the operations on whole trees. *)
From Verif Require Import Common Map_Spec BTree_Spec BTree_Model BTree_Proof.
From Coq Require Import Sorted.
Local Open Scope nat_scope.

Section Proof.
Context {T : Type}.
Variable less : T -> T -> bool.
Hypothesis SW : strict_weak less.
Variable o : nat.
Hypothesis Ho : 2 <= o.
Local Notation node := (bnode T).
Local Notation wf := (wf o).
Local Notation sorted := (sorted less).

(** ** iteration *)
Definition restHere (p : node * Z) : list T :=
  weave inorder (skipn (Z.to_nat (snd p + 1)) (bsubs (fst p))) (skipn (Z.to_nat (snd p + 1)) (bitems (fst p))).
Definition restUp (p : node * Z) : list T :=
  post inorder (skipn (S (Z.to_nat (snd p))) (bsubs (fst p))) (skipn (Z.to_nat (snd p)) (bitems (fst p))).
Definition restPath (l : list (node * Z)) : list T := flat_map restUp l.
Definition rest (l : list (node * Z)) : list T :=
  match l with [] => [] | p :: l' => restHere p ++ restPath l' end.

(** the nodes above one of height h *)
Fixpoint upOk (h : nat) (l : list (node * Z)) : Prop :=
  match l with
  | [] => True
  | (n, i) :: l' => wf (S h) 0 n /\ (0 <= i <= Z.of_nat (length (bitems n)))%Z /\ upOk (S h) l'
  end.
Definition pathOk (l : list (node * Z)) : Prop :=
  match l with
  | [] => True
  | (n, i) :: l' => exists h, wf h 0 n /\ (-1 <= i < Z.of_nat (length (bitems n)))%Z /\ upOk h l' /\
                              h + length l' < 50
  end.

Lemma goLeft_ok h : forall n path fuel, wf h (o - 1) n -> upOk h path -> h + length path < 50 -> h <= fuel ->
  exists x path', goLeft fuel n path = Ok (x, path') /\ pathOk path' /\
    inorder n ++ restPath path = x :: rest path'.
Proof.
  induction h as [|h IH]; intros n path fuel W U L F.
  - assert (W0 := wf_weaken o Ho _ _ 0 _ W ltac:(lia)).
    assert (E : goLeft fuel n path = let! x := at_ (bitems n) 0 in Ok (x, (n, 0%Z) :: path)).
    { destruct fuel; cbn [goLeft]; (replace (maxHeight <=? length path) with false by (symmetry; apply Nat.leb_gt; unfold maxHeight; lia));
      rewrite (wf_leaf _ _ _ _ W); reflexivity. }
    rewrite E. clear E. rewrite (cut_leaf _ n _ W).
    assert (B : 1 <= length (bitems n)) by (destruct n; simpl in *; lia).
    assert (Es : bsubs n = []) by (destruct n; simpl in *; tauto).
    destruct (bitems n) as [|x is] eqn:Ei; [simpl in B; lia|].
    cbn [at_ nth_error obind]. exists x. eexists. split; [reflexivity|]. split.
    + exists 0. rewrite Ei. cbn [length] in *. split; [exact W0|]. split; [lia|]. split; [exact U|lia].
    + unfold rest, restHere. cbn [fst snd]. rewrite Es, Ei. reflexivity.
  - destruct fuel as [|fuel]; [lia|]. cbn [goLeft].
    replace (maxHeight <=? length path) with false by (symmetry; apply Nat.leb_gt; unfold maxHeight; lia).
    rewrite (wf_leaf _ _ _ _ W). cbn [Nat.eqb].
    destruct (node_at o Ho h (o - 1) n 0 W ltac:(lia)) as (ss1&s&ss2&E1&E2&E3&Ws&_&_&_&E5&E).
    rewrite (at_ok _ _ _ E3). cbn [obind].
    destruct ss1; [|discriminate]. cbn [app] in E1.
    destruct (IH s ((n, 0%Z) :: path) fuel) as (x&path'&->&P&R); auto; try lia.
    + cbn [upOk]. split; [eapply (wf_weaken o Ho); [exact W|lia]|]. split; [lia|auto].
    + cbn [length]. lia.
    + exists x, path'. split; [reflexivity|]. split; auto. rewrite <- R, E.
      cbn [firstn skipn pre app]. unfold restPath. cbn [flat_map]. unfold restUp at 2. cbn [fst snd].
      change (Z.to_nat 0) with 0. rewrite E5. cbn [skipn]. rewrite <- app_assoc. reflexivity.
Qed.

Lemma restUp_nil n i : (0 <= i)%Z -> (i >=? Z.of_nat (keyCount n))%Z = true -> restUp (n, i) = [].
Proof.
  intros H0 H. unfold restUp. cbn [fst snd]. unfold keyCount in H. rewrite (skipn_all2 (bitems n)) by lia. reflexivity.
Qed.

Lemma goUp_ok : forall path h, upOk h path -> h + length path < 50 ->
  (restPath path = [] /\ exists p, goUp path = Ok (None, p)) \/
  (exists x path', goUp path = Ok (Some x, path') /\ pathOk path' /\ restPath path = x :: rest path').
Proof.
  induction path as [|[n i] path IH]; intros h U L.
  - left. split; auto. exists []. reflexivity.
  - destruct U as (W&Hi&U). cbn [goUp length] in *. cbn [restPath flat_map].
    destruct (i >=? Z.of_nat (keyCount n))%Z eqn:E.
    + rewrite restUp_nil by (auto; lia). cbn [app]. apply (IH (S h)); auto. lia.
    + right. replace (i <? 0)%Z with false by lia.
      destruct (nth_error (bitems n) (Z.to_nat i)) as [x|] eqn:Ex;
        [|apply nth_error_None in Ex; unfold keyCount in E; lia].
      rewrite (at_ok _ _ _ Ex). cbn [obind]. exists x. eexists. split; [reflexivity|]. split.
      * exists (S h). unfold keyCount in E. repeat split; auto; lia.
      * unfold restUp. cbn [fst snd]. rewrite (skipn_S _ _ _ Ex). cbn [post app]. f_equal.
        unfold rest, restHere. cbn [fst snd]. replace (Z.to_nat (i + 1)) with (S (Z.to_nat i)) by lia. reflexivity.
Qed.

Lemma next_ok (t : btree T) (it : biter) x r : pathOk (bpath it) -> rest (bpath it) = x :: r ->
  (bindex it < bsize t)%Z ->
  exists path', bnext t it = Ok (Some x, mkBI path' (bindex it + 1)) /\ pathOk path' /\ rest path' = r.
Proof.
  intros P R Hs. unfold bnext. replace (bindex it >=? bsize t)%Z with false by lia.
  destruct (bpath it) as [|[n i] path]; [discriminate|].
  destruct P as (h&W&Hi&U&L). cbn [rest] in R.
  rewrite (wf_leaf _ _ _ _ W). destruct h as [|h]; cbn [Nat.eqb].
  - assert (Es : bsubs n = []) by (destruct n; simpl in *; tauto).
    unfold restHere in R. cbn [fst snd] in R. rewrite Es, skipn_nil in R. cbn [weave] in R.
    destruct (i >=? Z.of_nat (keyCount n) - 1)%Z eqn:E; unfold keyCount in E.
    + rewrite skipn_all2 in R by lia. cbn [app] in R.
      destruct (goUp_ok path 0 U ltac:(lia)) as [(R0&_)|(y&path'&->&P'&R')]; [congruence|].
      cbn [obind]. rewrite R in R'. injection R' as <- ->. eauto.
    + destruct (nth_error (bitems n) (Z.to_nat (i + 1))) as [y|] eqn:Ey;
        [|apply nth_error_None in Ey; lia].
      rewrite (at_ok _ _ _ Ey). cbn [obind].
      rewrite (skipn_S _ _ _ Ey) in R. cbn [app] in R. injection R as -> R.
      eexists. split; [reflexivity|]. split.
      * exists 0. repeat split; auto; lia.
      * unfold rest, restHere. cbn [fst snd]. rewrite Es, skipn_nil.
        replace (Z.to_nat (i + 1 + 1)) with (S (Z.to_nat (i + 1))) by lia. exact R.
  - assert (Li : Z.to_nat (i + 1) <= length (bitems n)) by lia.
    destruct (node_at o Ho h 0 n _ W Li) as (ss1&s&ss2&E1&E2&E3&Ws&_&_&E4&E5&E).
    rewrite (at_ok _ _ _ E3). cbn [obind].
    destruct (goLeft_ok h s ((n, (i + 1)%Z) :: path) (height n)) as (y&path'&->&P'&R'); auto; try lia.
    + cbn [upOk]. repeat split; auto; lia.
    + cbn [length]. lia.
    + rewrite (wf_height o (S h) 0 n W). lia.
    + cbn [obind]. assert (Hr : x :: r = y :: rest path').
      { rewrite <- R', <- R. unfold restHere, restPath. cbn [fst snd flat_map]. unfold restUp at 2. cbn [fst snd].
        rewrite E5. rewrite (skipn_S _ _ _ E3). rewrite E5. cbn [weave]. rewrite <- app_assoc. reflexivity. }
      injection Hr as -> ->. eauto.
Qed.

Lemma walk_ok (t : btree T) : forall r fuel it, pathOk (bpath it) -> rest (bpath it) = r ->
  (bindex it + 1 + Z.of_nat (length r) = bsize t)%Z -> length r <= fuel -> bwalk fuel t it = Ok r.
Proof.
  induction r as [|x r IH]; intros fuel it P R Hs F.
  - assert (M : bmore t it = false) by (unfold bmore; simpl in Hs; lia). destruct fuel; cbn [bwalk]; rewrite M; reflexivity.
  - cbn [length] in *. assert (M : bmore t it = true) by (unfold bmore; lia).
    destruct fuel as [|fuel]; [lia|]. cbn [bwalk]. rewrite M.
    destruct (next_ok t it x r P R ltac:(lia)) as (path'&->&P'&R'). cbn [obind].
    rewrite (IH fuel); cbn [bpath bindex obind]; auto; lia.
Qed.

(** ** whole trees *)
Definition Inv (t : btree T) (l : list T) : Prop :=
  match t with
  | None => l = []
  | Some n => inorder n = l /\ sorted l /\ exists h, wf h (if h =? 0 then 0 else 1) n /\ (h <> 0 -> h < 50)
  end.

Lemma inv_size t l : Inv t l -> bsize t = Z.of_nat (length l).
Proof.
  destruct t as [n|]; simpl; [|intros ->; reflexivity].
  intros (<-&_&h&W&_). eapply wf_size; eauto.
Qed.

Lemma inv_sorted t l : Inv t l -> sorted l.
Proof. destruct t; simpl; [tauto|intros ->; constructor]. Qed.

Lemma contents_ok t l : Inv t l -> contents t = Ok l.
Proof.
  destruct t as [n|]; unfold contents; simpl; [|intros ->; reflexivity].
  intros (E&S&h&W&Hh). assert (Sz := wf_size _ _ _ _ W). rewrite Sz, E, Nat2Z.id.
  assert (R : rest (bpath (mkBI [(n, (-1)%Z)] (-1))) = l).
  { unfold rest, restHere. cbn [bpath fst snd restPath flat_map]. rewrite app_nil_r.
    change (Z.to_nat (-1 + 1)) with 0. cbn [skipn]. rewrite <- wf_inorder. exact E. }
  apply walk_ok; auto.
  - cbn [bpath pathOk]. exists h. split; [eapply (wf_weaken o Ho); [exact W|lia]|].
    split; [lia|]. split; [exact I|]. cbn [length]. destruct (Nat.eq_dec h 0); [lia|]. specialize (Hh n0). lia.
  - cbn [bindex bsize]. rewrite Sz, E. lia.
Qed.

Lemma find_ok t l k : Inv t l -> bfind less t k = Ok (List.find (fun x => sameKey less x k) l).
Proof.
  destruct t as [n|]; simpl; [|intros ->; reflexivity].
  intros (<-&S&h&W&_). rewrite (wf_height _ _ _ _ W). eapply findIn_ok; eauto.
Qed.

Lemma key_nonempty h (n : node) : wf h (if h =? 0 then 0 else 1) n -> keyCount n = 0 -> inorder n = [].
Proof.
  destruct h as [|h]; cbn [Nat.eqb]; intros W K; unfold keyCount in K.
  - rewrite (cut_leaf _ _ _ W). destruct (bitems n); [auto|discriminate].
  - destruct n; simpl in *; lia.
Qed.

Lemma rankOf_ok t l k : Inv t l -> rankOf less t k = Ok (Z.of_nat (length (filter (fun x => less x k) l))).
Proof.
  destruct t as [n|]; simpl; [|intros ->; reflexivity].
  intros (<-&S&h&W&_). destruct (keyCount n =? 0) eqn:E.
  - rewrite (key_nonempty h n W) by lia. reflexivity.
  - rewrite (wf_height _ _ _ _ W). erewrite rankOfIn_ok; eauto.
Qed.

Lemma item_ok t l r : Inv t l -> itemWithRank t r = Ok (nth_error l (clampRank r (length l))).
Proof.
  destruct t as [n|]; simpl; [|intros ->; destruct (clampRank _ _); reflexivity].
  intros (<-&S&h&W&_). destruct (keyCount n =? 0) eqn:E.
  - rewrite (key_nonempty h n W) by lia. destruct (clampRank _ _); reflexivity.
  - assert (Hl : 1 <= length (inorder n)).
    { unfold keyCount in E. rewrite wf_inorder. rewrite weave_length by (eapply wf_shape; eauto). lia. }
    rewrite (wf_size _ _ _ _ W), (wf_height _ _ _ _ W).
    unfold clampRank.
    set (m := Z.min (Z.max r 0) (Z.of_nat (length (inorder n)) - 1)).
    destruct (rankIn_ok o Ho h _ n (Datatypes.S h) (Z.to_nat m) W ltac:(lia) ltac:(lia)) as (x&Ex&En).
    rewrite Z2Nat.id in Ex by lia. rewrite Ex, En. reflexivity.
Qed.

Lemma add_ok t l k : Inv t l -> member less k l = false -> (N.of_nat (length l) < limit)%N ->
  exists t', badd less o t k = Ok (t', true) /\ Inv t' (enter less k l).
Proof.
  intros I M L. unfold badd.
  set (root := match t with Some n => n | None => BN true 0 [] [] end).
  assert (HR : inorder root = l /\ sorted l /\ exists h, wf h (if h =? 0 then 0 else 1) root).
  { subst root. destruct t as [n|]; [destruct I as (A&B&h&W&_); eauto|].
    cbn [Inv] in I. subst l. split; [reflexivity|]. split; [constructor|]. exists 0. simpl. repeat split; lia. }
  clearbody root. destruct HR as (El&Sl&h&W).
  assert (Fin : forall h n', wf h (if h =? 0 then 0 else 1) n' -> inorder n' = enter less k l -> Inv (Some n') (enter less k l)).
  { intros h' n' W' E'. cbn [Inv]. split; auto. split; [apply enter_sorted; auto|]. exists h'. split; auto.
    intros Hne. destruct h' as [|h']; [lia|]. cbn [Nat.eqb] in W'.
    apply (wf_low o Ho _ n'); auto. rewrite E', enter_length. lia. }
  destruct (keyCount root <? 2 * o - 1) eqn:E; unfold keyCount in E.
  - cbn [obind].
    destruct (insert_ok less SW o Ho k h _ root 50 W) as (n'&En&W'&I'); try rewrite El; auto; try lia.
    { destruct h as [|h]; [lia|]. apply (wf_low o Ho _ root); auto. rewrite El. lia. }
    unfold maxHeight. rewrite En. cbn [obind]. eexists. split; [reflexivity|]. rewrite El in I'. eapply Fin; eauto.
  - assert (Hfull : length (bitems root) = 2 * o - 1) by (destruct root, h; simpl in W |- *; simpl in E; lia).
    assert (Wr : wf h (o - 1) root).
    { destruct root as [rl rs ri rss]; destruct h; simpl in W, Hfull |- *; intuition lia. }
    assert (Wx : wf (S h) 0 (BN false (subtreeSize root) [] [root])).
    { cbn [BTree_Proof.wf]. split; [simpl; lia|]. split.
      - rewrite (wf_size _ _ _ _ W). cbn [inorder weave]. rewrite app_nil_r. reflexivity.
      - repeat split; auto. }
    destruct (splitChild_ok o Ho h 0 _ 0 root Wx ltac:(simpl; lia) eq_refl Hfull)
      as (n1&med&y'&z&->&W1&I1&B1&_).
    cbn [obind]. cbn [inorder weave] in I1. rewrite app_nil_r, El in I1. simpl in B1.
    assert (W2 : wf (S h) 1 n1) by (destruct n1; simpl in *; subst; simpl in *; intuition lia).
    destruct (insert_ok less SW o Ho k (S h) 1 n1 50 W2) as (n'&En&W'&I'); try rewrite I1; auto; try lia.
    { rewrite B1. simpl. lia. }
    { apply (wf_low o Ho _ n1); auto. rewrite I1. lia. }
    unfold maxHeight. rewrite En. cbn [obind]. eexists. split; [reflexivity|]. rewrite I1 in I'.
    apply (Fin (S h)); auto.
Qed.

(** ** an iteration from a key that is not in the tree *)
Lemma begin_ok k : forall h lo n path index fuel, wf h lo n -> sorted (inorder n) ->
  member less k (inorder n) = false -> upOk h path -> h + length path < 50 -> h < fuel ->
  exists m i path', beginIn less fuel n k path index =
      Ok ((m, Z.of_nat i) :: path', (index + Z.of_nat (length (filter (fun x => less x k) (inorder n))))%Z, false) /\
    isLeaf m = true /\ pathOk ((m, (Z.of_nat i - 1)%Z) :: path') /\
    rest ((m, (Z.of_nat i - 1)%Z) :: path') = filter (fun x => negb (less x k)) (inorder n) ++ restPath path.
Proof.
  induction h as [|h IH]; intros lo n path index fuel W S M U L F; destruct fuel as [|fuel]; try lia; cbn [beginIn];
  (destruct (search_spec less SW o Ho (bitems n) k (wf_sorted less o Ho _ _ _ W S)) as [(i&->&C)|(i&->&C)];
   [exfalso; destruct C as (x&E&E1&E2); rewrite member_false in M;
    destruct (M x) as [|]; try congruence; rewrite wf_inorder; apply (items_in o Ho);
    [eapply wf_shape; eauto|eapply nth_error_In; eauto]|]); cbn [obind];
  (replace (maxHeight <=? length path) with false by (symmetry; apply Nat.leb_gt; unfold maxHeight; lia));
  rewrite (wf_leaf _ _ _ _ W); cbn [Nat.eqb]; rewrite ?(pos_index o Ho);
  replace (Z.of_nat i - 1 + 1)%Z with (Z.of_nat i) by lia.
  - destruct C as (Li&B&A). exists n, i, path. rewrite (cut_leaf _ n lo W).
    assert (Ef : filter (fun x => less x k) (bitems n) = firstn i (bitems n)).
    { rewrite <- (firstn_skipn i (bitems n)) at 1. rewrite (filter_post less SW) by auto.
      rewrite <- (app_nil_r (firstn i (bitems n))) at 1. rewrite (filter_pre less) by auto. apply app_nil_r. }
    assert (En : filter (fun x => negb (less x k)) (bitems n) = skipn i (bitems n)).
    { rewrite <- (firstn_skipn i (bitems n)) at 1. rewrite filterN_pre, filterN_above by auto. reflexivity. }
    rewrite Ef, En.
    rewrite firstn_length, Nat.min_l by lia. split; [reflexivity|].
    assert (Es : bsubs n = []) by (destruct n; simpl in *; tauto).
    split; [destruct n; simpl in *; tauto|]. split.
    + exists 0. split; [eapply (wf_weaken o Ho); [exact W|lia]|]. repeat split; auto; try lia.
    + unfold rest, restHere. cbn [fst snd]. rewrite Es, skipn_nil, (pos_index o Ho). reflexivity.
  - destruct (node_cut less SW o Ho h lo n k i W S C) as (ss1&s&ss2&E1&E2&E3&Ws&G1&G2&E&B&A&Ss).
    rewrite (at_ok _ _ _ E3). cbn [obind].
    destruct C as (Li&_).
    assert (Es2 : skipn (Datatypes.S i) (bsubs n) = ss2).
    { rewrite E1, <- E2, skipn_app, skipn_all2 by lia. replace (Datatypes.S (length ss1) - length ss1) with 1 by lia. reflexivity. }
    edestruct (IH (o - 1) s ((n, Z.of_nat i) :: path) (index + Z.of_nat i + sizes (firstn i (bsubs n)))%Z fuel) as (m&j&path'&Eb&Em&P&R); [exact Ws|exact Ss| | | | |].
    { rewrite member_false in M |- *. intros x Hx. apply M. rewrite E. apply in_or_app. right. apply in_or_app. auto. }
    { cbn [upOk]. split; [eapply (wf_weaken o Ho); [exact W|lia]|]. repeat split; auto; lia. }
    { cbn [length]. lia. }
    { lia. }
    exists m, j, path'. rewrite Eb. split; [|split; [exact Em|split; [exact P|]]].
    + rewrite E, filter_pre, filter_post by auto.
      rewrite E1, <- E2, firstn_app, Nat.sub_diag, firstn_all. cbn [firstn]. rewrite app_nil_r.
      rewrite (sizes_total o Ho h (o - 1)) by auto.
      rewrite app_length, pre_length by (rewrite firstn_length; lia).
      rewrite firstn_length. match goal with |- Ok (_, ?a, _) = Ok (_, ?b, _) => replace a with b by lia end. reflexivity.
    + rewrite R, E, filterN_pre by auto. rewrite filter_app.
      rewrite (filterN_above less SW k (post inorder ss2 _)) by auto. rewrite <- app_assoc. f_equal.
      unfold restPath. cbn [flat_map]. f_equal. unfold restUp. cbn [fst snd]. rewrite Nat2Z.id, Es2. reflexivity.
Qed.

Lemma filter_split k l : length (filter (fun x => less x k) l) + length (filter (fun x => negb (less x k)) l) = length l.
Proof. induction l as [|x l IH]; simpl; auto. destruct (less x k); simpl; lia. Qed.

Lemma from_ok t l k : Inv t l -> member less k l = false ->
  exists it, beginFrom less t k = Ok it /\ forall fuel, length l <= fuel ->
    bwalk fuel t it = Ok (filter (fun x => negb (less x k)) l).
Proof.
  intros I M. assert (Sz := inv_size t l I). unfold beginFrom.
  destruct t as [n|].
  - destruct I as (E&S&h&W&Hh).
    destruct (bsize (Some n) <=? 0)%Z eqn:Z0.
    + eexists. split; [reflexivity|]. intros fuel Hf. destruct l; [|cbn [length] in Sz; lia].
      destruct fuel; cbn [bwalk]; unfold bmore; cbn [bindex]; rewrite Sz; reflexivity.
    + subst l.
      destruct (begin_ok k h _ n [] (-1)%Z (height n) W S M I) as (m&i&path'&->&Em&P&R).
      { destruct (Nat.eq_dec h 0); [simpl; lia|]. specialize (Hh n0). simpl. lia. }
      { rewrite (wf_height _ _ _ _ W). lia. }
      cbn [obind]. rewrite Em. eexists. split; [reflexivity|]. intros fuel Hf.
      assert (FS := filter_split k (inorder n)).
      apply walk_ok; auto; cbn [bpath bindex].
      * rewrite R. apply app_nil_r.
      * rewrite Sz. lia.
      * lia.
  - cbn [Inv] in I. subst l. eexists. split; [reflexivity|]. intros fuel _.
    destruct fuel; reflexivity.
Qed.
End Proof.

(** ** trees of one node *)
Section Small.
Context {T : Type}.
Variable less : T -> T -> bool.
Hypothesis SW : strict_weak less.
Variable o : nat.
Hypothesis Ho : 2 <= o.

Lemma small_leaf (n : bnode T) l : Inv less o (Some n) l -> length l <= 2 * o - 2 ->
  n = BN true (Z.of_nat (length l)) l [] /\ sorted less l.
Proof.
  intros (E&S&h&W&_) L. split; auto. destruct n as [lf sz is ss]. destruct h as [|h].
  - destruct W as (_&Sz&->&->). simpl in *. subst. reflexivity.
  - exfalso. destruct W as (B&_&_&Ls&F). cbn [inorder Nat.eqb] in *.
    assert (Hl := f_equal (@length T) E). rewrite weave_length in Hl by auto.
    destruct ss as [|a [|b ss]]; cbn [length] in Ls; try lia.
    apply Forall_cons_iff in F as [Wa F]. apply Forall_cons_iff in F as [Wb _].
    assert (Lb : forall s : bnode T, wf o h (o - 1) s -> o - 1 <= length (inorder s)).
    { intros s Ws. rewrite wf_inorder, weave_length by (eapply wf_shape; eauto).
      assert (o - 1 <= length (bitems s)) by (destruct s, h; simpl in Ws |- *; lia). lia. }
    apply Lb in Wa. apply Lb in Wb. cbn [total fold_right] in Hl. lia.
Qed.

Lemma member_found k l : sorted less l -> member less k l = true ->
  exists i, search less l k = Ok (true, Z.of_nat i) /\ found_at less k l i.
Proof.
  intros S M. destruct (search_spec less SW o Ho l k S) as [H|(i&_&_&B&A)]; auto. exfalso.
  unfold member in M. apply existsb_exists in M as (x&Hx&E).
  rewrite <- (firstn_skipn i l) in Hx. apply in_app_or in Hx as [Hx|Hx].
  - destruct (below_not less k _ B x Hx); congruence.
  - destruct (above_not less SW k _ A x Hx); congruence.
Qed.

Lemma absent_cut k l : sorted less l -> member less k l = false ->
  exists i, search less l k = Ok (false, Z.of_nat i - 1)%Z.
Proof.
  intros S M. destruct (search_spec less SW o Ho l k S) as [(i&_&x&E&E1&E2)|(i&E&_)]; eauto. exfalso.
  rewrite member_false in M. apply nth_error_In in E. destruct (M x E); congruence.
Qed.

Lemma add_again_small (t : btree T) l k : Inv less o t l -> length l <= 2 * o - 2 -> member less k l = true ->
  badd less o t k = Ok (t, false).
Proof.
  intros I L M. destruct t as [n|]; [|simpl in I; subst; discriminate].
  destruct (small_leaf n l I L) as [-> S].
  unfold badd, keyCount. cbn [bitems].
  replace (length l <? 2 * o - 1) with true by (symmetry; apply Nat.ltb_lt; lia). cbn [obind].
  destruct (member_found k l S M) as (i&E&_).
  unfold maxHeight. cbn [insertNonFull bitems]. rewrite E. reflexivity.
Qed.

Lemma remove_small (t : btree T) l k : Inv less o t l -> 2 <= length l <= 2 * o - 2 ->
  exists t', bremove less o t k = Ok (t', member less k l) /\
    Inv less o t' (filter (fun x => negb (sameKey less x k)) l).
Proof.
  intros I L. destruct t as [n|]; [|simpl in I; subst; simpl in L; lia].
  destruct (small_leaf n l I ltac:(lia)) as [-> S].
  unfold bremove, keyCount. cbn [bitems height maxHeight].
  replace (length l =? 0) with false by (symmetry; apply Nat.eqb_neq; lia).
  replace (maxHeight <? 1) with false by reflexivity.
  cbn [removeIn bitems].
  destruct (member less k l) eqn:M.
  - destruct (member_found k l S M) as (i&->&x&Ex&E1&E2). cbn [obind descendInto isLeaf negb].
    rewrite Nat2Z.id. unfold removeAt.
    assert (Hi : i < length l) by (apply nth_error_Some; congruence).
    replace (i <? length l) with true by (symmetry; apply Nat.ltb_lt; lia). cbn [obind andb].
    assert (Sp := nth_split_at _ _ _ Ex).
    assert (Hl : length (firstn i l ++ skipn (Datatypes.S i) l) = length l - 1).
    { rewrite app_length, firstn_length, skipn_length. lia. }
    replace (length (firstn i l ++ skipn (Datatypes.S i) l) =? 0) with false by (symmetry; apply Nat.eqb_neq; lia).
    cbn [obind decSize]. eexists. split; [reflexivity|].
    assert (Ef : filter (fun x => negb (sameKey less x k)) l = firstn i l ++ skipn (Datatypes.S i) l).
    { rewrite Sp in S. destruct (equal_key less SW k _ x _ S E1 E2) as [B A].
      rewrite Sp at 1. rewrite filter_app. cbn [filter]. unfold sameKey at 2. rewrite E1, E2. cbn [negb andb].
      f_equal.
      - clear - B. induction (firstn i l) as [|y m IH]; auto. cbn [filter].
        rewrite (proj1 (below_not less k _ B y (or_introl eq_refl))). cbn [negb]. f_equal.
        apply IH. intros z Hz; apply B; right; auto.
      - clear - A SW. induction (skipn (Datatypes.S i) l) as [|y m IH]; auto. cbn [filter].
        rewrite (proj1 (above_not less SW k _ A y (or_introl eq_refl))). cbn [negb]. f_equal.
        apply IH. intros z Hz; apply A; right; auto. }
    rewrite Ef. split; [reflexivity|]. split.
    + rewrite Sp in S. apply sorted_app in S as (S1&S2&S3). apply StronglySorted_inv in S2 as [S2 _].
      apply sorted_app. repeat split; auto. intros a b Ha Hb. apply S3; auto. right; auto.
    + exists 0. cbn [BTree_Proof.wf Nat.eqb]. rewrite Hl. cbn [inorder weave]. rewrite Hl. repeat split; try lia.
  - destruct (absent_cut k l S M) as (i&->). cbn [obind descendInto isLeaf negb].
    eexists. split; [reflexivity|].
    assert (Ef : filter (fun x => negb (sameKey less x k)) l = l).
    { clear - M. unfold member in M. induction l as [|y l IH]; auto. cbn [existsb filter] in *.
      apply orb_false_iff in M as [-> M]. cbn [negb]. f_equal. auto. }
    rewrite Ef. exact I.
Qed.
End Small.
