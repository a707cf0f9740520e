(** Proofs for the JSON object interface, equality and paths. *)
From Verif Require Import Common Json_Spec Json_Model JsonNorm_Proof JsonDom_Spec JsonDom_Model.
Local Open Scope N_scope.

(** ** Names *)
Lemma cmpLoop_eq a b : length a = length b -> (cmpLoop a b = Eq <-> a = b).
Proof.
  revert b. induction a as [|x a IH]; intros [|y b] L; try discriminate; [split; reflexivity|]. cbn [cmpLoop].
  injection L as L. destruct (N.eqb_spec x y) as [->|H].
  - rewrite (IH b L). split; congruence.
  - destruct (schar x <? schar y)%Z; split; congruence.
Qed.
Lemma cmpLoop_refl a : cmpLoop a a = Eq.
Proof. apply cmpLoop_eq; reflexivity. Qed.
Lemma cmpShort_eq a b : (length a <= length b)%nat -> (cmpShort a b = Eq <-> a = b).
Proof.
  intros L. destruct a as [|x a]; [destruct b; cbn; split; congruence|].
  unfold cmpShort. destruct (Nat.eq_dec (length (x :: a)) (length b)) as [E|E].
  - destruct (cmpLoop (x :: a) b) eqn:C.
    + apply cmpLoop_eq in C; [|exact E]. subst b. rewrite Nat.ltb_irrefl. split; reflexivity.
    + split; [discriminate|]. intros <-. rewrite cmpLoop_refl in C. discriminate.
    + split; [discriminate|]. intros <-. rewrite cmpLoop_refl in C. discriminate.
  - assert (Q : Nat.ltb (length (x :: a)) (length b) = true) by (apply Nat.ltb_lt; lia).
    rewrite Q. split; [|intros <-; congruence]. destruct (cmpLoop _ _); discriminate.
Qed.
Lemma compareKeys_eq a b : compareKeys a b = Eq <-> a = b.
Proof.
  unfold compareKeys. destruct (Nat.ltb_spec (length b) (length a)) as [H|H].
  - pose proof (cmpShort_eq b a ltac:(lia)) as Q. destruct (cmpShort b a); cbn [CompOpp]; split; intros E; try discriminate;
      [symmetry; apply Q; reflexivity|reflexivity|exfalso; subst b; lia|exfalso; subst b; lia].
  - apply cmpShort_eq; exact H.
Qed.
Lemma lookup_find k m : lookup k m = find k m.
Proof.
  induction m as [|[k' v] m IH]; [reflexivity|]. cbn [lookup find]. pose proof (compareKeys_eq k k') as Q.
  destruct (list_eq_dec N.eq_dec k k') as [E|E].
  - rewrite (proj2 Q E). reflexivity.
  - destruct (compareKeys k k'); [exfalso; tauto|exact IH..].
Qed.

(** ** Objects *)
Lemma bkeys_map m : bkeys m <-> Forall bytes_ok (map fst m).
Proof. unfold bkeys. rewrite Forall_map. reflexivity. Qed.
Definition oinv (o : obj) : Prop :=
  bkeys (fields o) /\ increasing (map fst (fields o)) /\ count o = N.of_nat (length (fields o)).

Lemma keys_find k m : In k (map fst m) <-> find k m <> None.
Proof.
  induction m as [|[k' v] m IH]; cbn [map fst In find]; [tauto|]. destruct (list_eq_dec N.eq_dec k k') as [->|E].
  - split; [discriminate|left; reflexivity].
  - rewrite <- IH. split; [intros [->|H]; [congruence|exact H]|tauto].
Qed.
Lemma insert_length k v m : find k m = None -> length (insertField k v m) = S (length m).
Proof.
  induction m as [|[k' v'] m IH]; [reflexivity|]. cbn [find insertField]. destruct (list_eq_dec N.eq_dec k k') as [->|E]; [discriminate|].
  intros H. pose proof (compareKeys_eq k k') as Q. destruct (compareKeys k k'); [exfalso; tauto|reflexivity|].
  cbn [length]. rewrite IH by exact H. reflexivity.
Qed.
Lemma increasing_cons' k ks : Forall (klt k) ks -> increasing ks -> increasing (k :: ks).
Proof. intros F H. cbn [increasing]. split; [|exact H]. destruct ks; [exact I|]. apply Forall_cons_iff in F. tauto. Qed.

Lemma remove_keys (Q : list N -> Prop) k m : Forall Q (map fst m) -> Forall Q (map fst (removeField k m)).
Proof.
  induction m as [|[k' v'] m IH]; intros H; cbn [removeField map fst] in *; [constructor|].
  apply Forall_cons_iff in H as [H1 H2]. destruct (compareKeys k k'); cbn [map fst]; [exact H2|constructor; auto..].
Qed.
Lemma remove_increasing k m : increasing (map fst m) -> increasing (map fst (removeField k m)).
Proof.
  induction m as [|[k' v'] m IH]; intros H; [exact I|]. cbn [map fst] in H. pose proof (increasing_cons _ _ H) as [H1 H2].
  cbn [removeField]. destruct (compareKeys k k'); cbn [map fst]; [exact H1|apply increasing_cons'; [apply remove_keys; exact H2|auto]..].
Qed.
Lemma remove_find k m k' : increasing (map fst m) ->
  find k' (removeField k m) = if list_eq_dec N.eq_dec k' k then None else find k' m.
Proof.
  induction m as [|[k1 v1] m IH]; intros H; [cbn; destruct (list_eq_dec N.eq_dec k' k); reflexivity|].
  cbn [map fst] in H. pose proof (increasing_cons _ _ H) as [H1 H2]. cbn [removeField]. pose proof (compareKeys_eq k k1) as Q.
  destruct (compareKeys k k1); cbn [find].
  - destruct (proj1 Q eq_refl). destruct (list_eq_dec N.eq_dec k' k) as [->|E]; [apply find_above; exact H2|reflexivity].
  - rewrite IH by exact H1. destruct (list_eq_dec N.eq_dec k' k1) as [->|E], (list_eq_dec N.eq_dec k1 k) as [E'|E']; try reflexivity.
    + exfalso. symmetry in E'. apply Q in E'. discriminate.
  - rewrite IH by exact H1. destruct (list_eq_dec N.eq_dec k' k1) as [->|E], (list_eq_dec N.eq_dec k1 k) as [E'|E']; try reflexivity.
    + exfalso. symmetry in E'. apply Q in E'. discriminate.
Qed.
Lemma remove_length k m : find k m <> None -> S (length (removeField k m)) = length m.
Proof.
  induction m as [|[k1 v1] m IH]; [cbn; tauto|]. cbn [find removeField]. pose proof (compareKeys_eq k k1) as Q.
  destruct (list_eq_dec N.eq_dec k k1) as [E|E].
  - rewrite (proj2 Q E). reflexivity.
  - intros H. destruct (compareKeys k k1); [exfalso; tauto|cbn [length]; rewrite IH by exact H; reflexivity..].
Qed.
Lemma assign_keys k v m : map fst (assignField k v m) = map fst m.
Proof.
  induction m as [|[k1 v1] m IH]; [reflexivity|]. cbn [assignField]. destruct (compareKeys k k1); cbn [map fst]; [reflexivity|rewrite IH; reflexivity..].
Qed.
Lemma assign_find k v m k' : find k m <> None ->
  find k' (assignField k v m) = if list_eq_dec N.eq_dec k' k then Some v else find k' m.
Proof.
  induction m as [|[k1 v1] m IH]; [cbn; tauto|]. cbn [find assignField]. pose proof (compareKeys_eq k k1) as Q.
  destruct (list_eq_dec N.eq_dec k k1) as [E|E].
  - intros _. rewrite (proj2 Q E). subst k1. cbn [find]. destruct (list_eq_dec N.eq_dec k' k); reflexivity.
  - intros H. destruct (compareKeys k k1); [exfalso; tauto| |]; cbn [find]; rewrite IH by exact H;
      destruct (list_eq_dec N.eq_dec k' k1) as [->|E1], (list_eq_dec N.eq_dec k1 k) as [E2|E2]; congruence.
Qed.

Lemma erase_ok k o : oinv o -> oinv (erase k o) /\
  forall k', find k' (fields (erase k o)) = if list_eq_dec N.eq_dec k' k then None else find k' (fields o).
Proof.
  intros (B & I & C). unfold erase. rewrite lookup_find. destruct (find k (fields o)) as [w|] eqn:F.
  - split; [split; [apply bkeys_map, remove_keys, bkeys_map; exact B|split; [apply remove_increasing; exact I|]]|].
    + cbn [fields count]. pose proof (remove_length k (fields o) ltac:(congruence)). lia.
    + intros k'. apply remove_find. exact I.
  - split; [repeat split; assumption|]. intros k'. destruct (list_eq_dec N.eq_dec k' k) as [->|]; auto.
Qed.
Lemma insert_ok k v o : bytes_ok k -> oinv o -> oinv (insert k v o) /\
  forall k', find k' (fields (insert k v o)) =
    match find k (fields o) with
    | Some _ => find k' (fields o)
    | None => if list_eq_dec N.eq_dec k' k then Some v else find k' (fields o)
    end.
Proof.
  intros Hk (B & I & C). unfold insert. rewrite lookup_find. destruct (find k (fields o)) as [w|] eqn:F.
  - split; [repeat split; assumption|auto].
  - split; [split; [apply bkeys_map, insert_keys; [exact Hk|apply bkeys_map; exact B]|split; [apply insert_increasing; assumption|]]|].
    + cbn [fields count]. rewrite insert_length by exact F. lia.
    + intros k'. cbn [fields]. rewrite insert_find by assumption.
      destruct (list_eq_dec N.eq_dec k' k) as [->|E]; [rewrite F; reflexivity|destruct (find k' _); reflexivity].
Qed.
Lemma add_ok k v o : bytes_ok k -> oinv o -> oinv (add k v o) /\
  forall k', find k' (fields (add k v o)) =
    match v, find k (fields o) with
    | Some _, Some _ => find k' (fields o)
    | _, _ => if list_eq_dec N.eq_dec k' k then v else find k' (fields o)
    end.
Proof.
  intros Hk Hi. destruct v as [v|]; cbn [add].
  - apply insert_ok; assumption.
  - destruct (erase_ok k o Hi) as [A D]. split; [exact A|]. intros k'. rewrite D. destruct (find k (fields o)); reflexivity.
Qed.

Definition is_clear (op : oop) : bool := match op with OClear => true | _ => false end.
Lemma oexec_ok op o f : oinv o -> oname_ok op -> is_clear op = false -> (forall k, f k = find k (fields o)) ->
  exists f1, osem f op f1 (snd (oexec op o)) /\ oinv (fst (oexec op o)) /\ forall k, f1 k = find k (fields (fst (oexec op o))).
Proof.
  intros Hi Hn Hc Hf. assert (L : lists f (fields o)) by (destruct Hi as (B & I & C); split; [exact I|]; intros k; symmetry; apply Hf).
  destruct op as [k v|k v|k| |k| |]; cbn [oexec fst snd oname_ok] in *; try discriminate.
  - destruct (add_ok k v o Hn Hi) as [A D]. destruct v as [v|].
    + destruct (f k) as [w|] eqn:F.
      * exists f. split; [econstructor; exact F|]. split; [exact A|]. intros k'. rewrite D. rewrite Hf in F. rewrite F. apply Hf.
      * exists (oset f k (Some v)). split; [constructor; exact F|]. split; [exact A|]. intros k'. rewrite D. rewrite Hf in F. rewrite F.
        unfold oset. rewrite Hf. reflexivity.
    + exists (oset f k None). split; [constructor|]. split; [exact A|]. intros k'. rewrite D. unfold oset. rewrite Hf. reflexivity.
  - exists (oset f k v). unfold replace. rewrite lookup_find. destruct (find k (fields o)) as [w|] eqn:F.
    + destruct v as [v|]; cbn [fst snd].
      * split; [rewrite <- F, <- Hf; constructor|]. split.
        { destruct Hi as (B & I & C). split; cbn [fields]; [apply bkeys_map; rewrite assign_keys; apply bkeys_map; exact B|]. split; [rewrite assign_keys; exact I|].
          cbn [count]. rewrite C, <- (map_length fst (assignField k v (fields o))), assign_keys, map_length. reflexivity. }
        intros k'. cbn [fields]. rewrite assign_find by congruence. unfold oset. rewrite Hf. reflexivity.
      * destruct (erase_ok k o Hi) as [A D]. split; [rewrite <- F, <- Hf; constructor|]. split; [exact A|].
        intros k'. rewrite D. unfold oset. rewrite Hf. reflexivity.
    + destruct (add_ok k v o Hn Hi) as [A D]. cbn [fst snd]. split; [rewrite <- F, <- Hf; constructor|]. split; [exact A|].
      intros k'. rewrite D, F. unfold oset. rewrite Hf. destruct v; reflexivity.
  - destruct (erase_ok k o Hi) as [A D]. exists (oset f k None). split; [constructor|]. split; [exact A|].
    intros k'. rewrite D. unfold oset. rewrite Hf. reflexivity.
  - exists f. rewrite lookup_find, <- Hf. split; [constructor|]. split; [exact Hi|exact Hf].
  - exists f. destruct Hi as (B & I & C). rewrite C. split; [constructor; exact L|]. split; [repeat split; assumption|exact Hf].
  - exists f. split; [constructor; exact L|]. split; [exact Hi|exact Hf].
Qed.
Lemma orun_ok ops : forall o f, oinv o -> Forall oname_ok ops -> Forall (fun op => is_clear op = false) ops ->
  (forall k, f k = find k (fields o)) ->
  ohist f ops (snd (orun ops o)) (fun k => find k (fields (fst (orun ops o)))).
Proof.
  induction ops as [|op ops IH]; intros o f Hi Hn Hc Hf; cbn [orun fst snd]; [constructor; exact Hf|].
  apply Forall_cons_iff in Hn as [Hn1 Hn2]. apply Forall_cons_iff in Hc as [Hc1 Hc2].
  destruct (oexec_ok op o f Hi Hn1 Hc1 Hf) as (f1 & S & I1 & F1). destruct (oexec op o) as [o1 a]. cbn [fst snd] in *.
  specialize (IH o1 f1 I1 Hn2 Hc2 F1). destruct (orun ops o1) as [o2 l]. cbn [fst snd] in *. econstructor; eauto.
Qed.

(** ** Equality *)
Section NodeInd.
  Variable P : node -> Prop.
  Hypothesis HL : forall a k, match k with KArr _ | KObj _ => False | _ => True end -> P (Node a k).
  Hypothesis HA : forall a l, Forall P l -> P (Node a (KArr l)).
  Hypothesis HO : forall a m, Forall (fun kv => P (snd kv)) m -> P (Node a (KObj m)).
  Fixpoint node_deep (n : node) : P n :=
    match n with
    | Node a k =>
        match k return P (Node a k) with
        | KArr l => HA a l ((fix go l : Forall P l := match l with [] => Forall_nil _ | x :: l => Forall_cons _ (node_deep x) (go l) end) l)
        | KObj m => HO a m ((fix go m : Forall (fun kv => P (snd kv)) m := match m with [] => Forall_nil _ | x :: m => Forall_cons x (node_deep (snd x)) (go m) end) m)
        | KNull => HL a KNull I | KBool b => HL a (KBool b) I | KZero => HL a KZero I | KInt z => HL a (KInt z) I
        | KFloat x => HL a (KFloat x) I | KEmpty => HL a KEmpty I | KStr s => HL a (KStr s) I
        end
    end.
End NodeInd.

(** the value a node stands for *)
Fixpoint den (n : node) : json :=
  match n with Node _ k =>
    match k with
    | KNull => JNull | KBool b => JBool b | KZero => JInt 0 | KInt z => JInt z | KFloat x => JFloat [x]
    | KEmpty => JStr [] | KStr s => JStr s
    | KArr l => JArr (map den l)
    | KObj m => JObj (map (fun kv => (fst kv, den (snd kv))) m)
    end
  end.
(** as the factory makes nodes: 0 and "" are always the shared nodes *)
Inductive made : node -> Prop :=
| made_leaf a k : match k with KInt z => z <> 0%Z | KStr s => s <> [] | KArr _ | KObj _ => False | _ => True end -> made (Node a k)
| made_arr a l : Forall made l -> made (Node a (KArr l))
| made_obj a m : Forall (fun kv => made (snd kv)) m -> made (Node a (KObj m)).
(** no objects, no 0 and no "" *)
Inductive exact : node -> Prop :=
| exact_leaf a k : match k with KZero | KEmpty | KArr _ | KObj _ => False | KInt z => z <> 0%Z | KStr s => s <> [] | _ => True end -> exact (Node a k)
| exact_arr a l : Forall exact l -> exact (Node a (KArr l)).

Lemma eq_exact tz a : exact a -> forall b, made b -> (eqNode tz a b = true <-> den a = den b).
Proof.
  induction a as [a k Hk|a l IH|a m IH] using node_deep; intros E b M.
  - inversion E as [a' k' Hx|]; subst; [|contradiction]. destruct b as [b k']. cbn [eqNode nkind_of den].
    assert (Mk : match k' with KInt z => z <> 0%Z | KStr s => s <> [] | _ => True end) by (inversion M; subst; [destruct k'; auto|exact I|exact I]).
    destruct k; try contradiction; destruct k'; cbn [den]; try (split; discriminate); try (split; reflexivity).
    + rewrite Bool.eqb_true_iff. split; congruence.
    + split; [discriminate|]. congruence.
    + rewrite Z.eqb_eq. split; congruence.
    + rewrite N.eqb_eq. split; congruence.
    + destruct s; [contradiction|]. split; discriminate.
    + destruct (list_eq_dec N.eq_dec s s0) as [->|H]; split; congruence.
  - inversion E as [a' k' Hx|a' l' Hl]; subst; [contradiction|]. destruct b as [b k']. cbn [eqNode nkind_of den].
    destruct k' as [| | | | | | |l'|]; cbn [den]; try (split; discriminate).
    assert (Ml : Forall made l') by (inversion M; subst; [contradiction|assumption]). clear M E.
    transitivity (map den l = map den l'); [|split; congruence].
    revert l' Ml. induction l as [|x l IHl]; intros [|y l'] Ml; try (cbn; split; [discriminate|discriminate]); [split; reflexivity|].
    apply Forall_cons_iff in IH as [IHx IH]. apply Forall_cons_iff in Hl as [Hx Hl]. apply Forall_cons_iff in Ml as [My Ml].
    specialize (IHl IH Hl l' Ml). specialize (IHx Hx y My). cbn [length Nat.eqb map].
    rewrite !andb_true_iff in *. split.
    + intros (L & A & B). f_equal; [apply IHx; exact A|]. apply IHl. split; [exact L|exact B].
    + intros [= A B]. apply IHl in B as [B1 B2]. split; [exact B1|]. split; [apply IHx; exact A|exact B2].
  - inversion E. contradiction.
Qed.
Lemma eq_refl_node tz a : eqNode tz a a = true.
Proof.
  induction a as [a k Hk|a l IH|a m IH] using node_deep.
  - destruct k; cbn; try contradiction; try reflexivity.
    + apply Bool.eqb_reflx.
    + apply Z.eqb_refl.
    + apply N.eqb_refl.
    + destruct (list_eq_dec N.eq_dec s s); congruence.
  - cbn [eqNode nkind_of]. rewrite Nat.eqb_refl. cbn [andb]. induction IH as [|x l Hx _ IHl]; [reflexivity|]. rewrite Hx. exact IHl.
  - cbn [eqNode nkind_of]. rewrite Nat.eqb_refl. cbn [andb]. clear IH. induction m as [|[k x] m IHm]; [reflexivity|].
    destruct (list_eq_dec N.eq_dec k k) as [_|H]; [|congruence]. rewrite N.eqb_refl. exact IHm.
Qed.

Definition constant (n : node) : bool := match nkind_of n with KNull | KBool _ | KZero | KEmpty => true | _ => false end.
Fixpoint cloneArr (next : N) (l : list node) : list node * N :=
  match l with [] => ([], next) | x :: l => let (x', n1) := clone next x in let (l', n2) := cloneArr n1 l in (x' :: l', n2) end.
Fixpoint cloneObj (next : N) (m : list (list N * node)) : list (list N * node) * N :=
  match m with [] => ([], next) | (k, x) :: m => let (x', n1) := clone next x in let (m', n2) := cloneObj n1 m in ((k, x') :: m', n2) end.
Lemma clone_arr next a l : clone next (Node a (KArr l)) = let (l', n') := cloneArr (next + 1) l in (Node next (KArr l'), n').
Proof. reflexivity. Qed.
Lemma clone_obj next a m : clone next (Node a (KObj m)) = let (m', n') := cloneObj (next + 1) m in (Node next (KObj m'), n').
Proof. reflexivity. Qed.
Lemma clone_ok n : forall next, next <= snd (clone next n) /\ den (fst (clone next n)) = den n /\
  (constant n = false -> naddr (fst (clone next n)) = next).
Proof.
  induction n as [a k Hk|a l IH|a m IH] using node_deep; intros next.
  - destruct k; try contradiction; cbn [clone fst snd naddr]; repeat split; try lia; try discriminate.
  - rewrite clone_arr. assert (Q : forall nx, nx <= snd (cloneArr nx l) /\ map den (fst (cloneArr nx l)) = map den l).
    { induction IH as [|x l Hx _ IHl]; intros nx; [cbn; split; [lia|reflexivity]|]. cbn [cloneArr].
      destruct (Hx nx) as (A1 & A2 & _). destruct (clone nx x) as [x' n1]. specialize (IHl n1). destruct (cloneArr n1 l) as [l' n2].
      cbn [fst snd map] in *. destruct IHl as [B1 B2]. split; [lia|congruence]. }
    specialize (Q (next + 1)). destruct (cloneArr (next + 1) l) as [l' n']. cbn [fst snd naddr den] in *. destruct Q as [Q1 Q2].
    split; [lia|]. split; [congruence|reflexivity].
  - rewrite clone_obj. assert (Q : forall nx, nx <= snd (cloneObj nx m) /\
      map (fun kv => (fst kv, den (snd kv))) (fst (cloneObj nx m)) = map (fun kv => (fst kv, den (snd kv))) m).
    { induction IH as [|[k x] m Hx _ IHm]; intros nx; [cbn; split; [lia|reflexivity]|]. cbn [cloneObj]. cbn [snd] in Hx.
      destruct (Hx nx) as (A1 & A2 & _). destruct (clone nx x) as [x' n1]. specialize (IHm n1). destruct (cloneObj n1 m) as [m' n2].
      cbn [fst snd map] in *. destruct IHm as [B1 B2]. split; [lia|congruence]. }
    specialize (Q (next + 1)). destruct (cloneObj (next + 1) m) as [m' n']. cbn [fst snd naddr den] in *. destruct Q as [Q1 Q2].
    split; [lia|]. split; [congruence|reflexivity].
Qed.
Lemma clone_differs tz a m next : (exists k x, In (k, x) m /\ constant x = false /\ naddr x < next) ->
  eqNode tz (Node a (KObj m)) (fst (clone next (Node a (KObj m)))) = false.
Proof.
  intros (k & x & Hin & Hc & Ha). rewrite clone_obj. assert (L : next < next + 1) by lia. revert L. generalize (next + 1) as nx. intros nx L.
  destruct (cloneObj nx m) as [m' n'] eqn:E. cbn [fst eqNode nkind_of]. rewrite andb_false_iff. right. assert (La : naddr x < nx) by lia. clear L.
  revert nx m' n' E La. induction m as [|[k1 x1] m IH]; intros nx m' n' E La; [contradiction|]. cbn [cloneObj] in E.
  destruct (clone_ok x1 nx) as (A1 & _ & A3). destruct (clone nx x1) as [x1' n1]. cbn [fst snd] in *.
  destruct (cloneObj n1 m) as [m1 n2] eqn:E1. injection E as <- <-.
  destruct Hin as [[= -> ->]|Hin].
  - rewrite (A3 Hc). destruct (N.eqb_spec (naddr x) nx); [lia|]. rewrite andb_false_r. reflexivity.
  - rewrite (IH Hin n1 m1 n2 E1 ltac:(lia)). apply andb_false_r.
Qed.

(** ** Paths *)
Fixpoint steps (p : path) : list step :=
  match p with
  | PRoot => []
  | PItem q (Some k) _ => steps q ++ [Key k]
  | PItem q None i => steps q ++ [Idx i]
  end.
(** paths made by the constructors *)
Inductive well : path -> Prop :=
| well_root : well PRoot
| well_key q k : well q -> well (pathKey q (Some k))
| well_idx q i : well q -> well (pathIndex q i).

Lemma locate_app p : forall v q, locate v (p ++ q) = match locate v p with Some w => locate w q | None => None end.
Proof.
  induction p as [|[i|k] p IH]; intros v q; [reflexivity|..]; cbn [app locate].
  - destruct v; try reflexivity. destruct (nth_error l (N.to_nat i)); [apply IH|reflexivity].
  - destruct v; try reflexivity. destruct (find k m); [apply IH|reflexivity].
Qed.
Lemma resolve_ok at_ p : (forall i l w, nth_error l (N.to_nat i) = Some w -> at_ i (JArr l) = Ok (Some w)) -> well p ->
  forall v w, locate v (steps p) = Some w -> resolve at_ p v = Ok (Some w).
Proof.
  intros Hat W. induction W as [|q k W IH|q i W IH]; intros v w H.
  - cbn in *. congruence.
  - cbn [steps pathKey resolve] in *. rewrite locate_app in H. destruct (locate v (steps q)) as [u|] eqn:E; [|discriminate].
    rewrite (IH v u E). cbn [obind]. cbn [locate] in H. destruct u as [| | | | | |m]; try discriminate. cbn [getVariable]. rewrite lookup_find.
    destruct (find k m); [congruence|discriminate].
  - cbn [steps pathIndex resolve] in *. rewrite locate_app in H. destruct (locate v (steps q)) as [u|] eqn:E; [|discriminate].
    rewrite (IH v u E). cbn [obind]. cbn [locate] in H. destruct u as [| | | | |l|]; try discriminate.
    destruct (nth_error l (N.to_nat i)) eqn:F; [|discriminate]. rewrite (Hat i l j F). congruence.
Qed.
Lemma constValueAt_ok i l w : nth_error l (N.to_nat i) = Some w -> constValueAt i (JArr l) = Ok (Some w).
Proof. intros H. unfold constValueAt, getEntry. rewrite H. reflexivity. Qed.
Lemma valueAt_ok i l w : nth_error l (N.to_nat i) = Some w -> valueAt i (JArr l) = Ok (Some w).
Proof.
  intros H. unfold valueAt, entryCount. assert (Q : (N.to_nat i < length l)%nat) by (apply nth_error_Some; congruence).
  replace (N.of_nat (length l) <=? i) with false by (symmetry; apply N.leb_gt; lia). apply constValueAt_ok. exact H.
Qed.

Definition path_ok (p : path) : Prop := Forall step_ok (steps p).
Lemma path_ok_inv q k i : path_ok (PItem q k i) -> path_ok q /\ match k with Some k => bytes_ok k | None => True end.
Proof.
  unfold path_ok. destruct k as [k|]; cbn [steps]; rewrite Forall_app; intros [A B]; (split; [exact A|]); [|exact I].
  apply Forall_cons_iff in B. exact (proj1 B).
Qed.
Lemma compareKeys_sym a b : bytes_ok a -> bytes_ok b -> compareKeys b a = CompOpp (compareKeys a b).
Proof.
  intros Ha Hb. pose proof (compareKeys_ok a b Ha Hb) as A. pose proof (compareKeys_ok b a Hb Ha) as B.
  pose proof (compareKeys_eq a b) as E1. pose proof (compareKeys_eq b a) as E2.
  destruct (compareKeys a b), (compareKeys b a); cbn [CompOpp]; try reflexivity; exfalso;
    try (subst; eapply klt_irrefl; eassumption); try (apply (klt_irrefl a); eapply klt_trans; eassumption);
    try (apply (klt_irrefl b); eapply klt_trans; eassumption).
Qed.
Lemma comparePath_eq a b : well a -> well b -> (comparePath a b = Eq <-> steps a = steps b).
Proof.
  intros Wa. revert b. induction Wa as [|q k W IH|q i W IH]; intros b Wb; destruct Wb as [|q' k' W'|q' i' W'];
    cbn [comparePath steps pathKey pathIndex]; try (split; [reflexivity|reflexivity]);
    try (split; [discriminate|intros H; symmetry in H; apply app_eq_nil in H as [_ H]; discriminate]);
    try (split; [discriminate|intros H; apply app_eq_nil in H as [_ H]; discriminate]);
    specialize (IH q' W').
  - pose proof (compareKeys_eq k k') as Q. destruct (comparePath q q').
    + rewrite Q. split; [intros ->; f_equal; apply IH; reflexivity|]. intros H. apply app_inj_tail in H as [_ H]. congruence.
    + split; [discriminate|]. intros H. apply app_inj_tail in H as [H _]. apply IH in H. discriminate.
    + split; [discriminate|]. intros H. apply app_inj_tail in H as [H _]. apply IH in H. discriminate.
  - destruct (comparePath q q'); (split; [discriminate|]); intros H; apply app_inj_tail in H as [_ H]; discriminate.
  - destruct (comparePath q q'); (split; [discriminate|]); intros H; apply app_inj_tail in H as [_ H]; discriminate.
  - destruct (comparePath q q').
    + rewrite N.compare_eq_iff. split; [intros ->; f_equal; apply IH; reflexivity|]. intros H. apply app_inj_tail in H as [_ H]. congruence.
    + split; [discriminate|]. intros H. apply app_inj_tail in H as [H _]. apply IH in H. discriminate.
    + split; [discriminate|]. intros H. apply app_inj_tail in H as [H _]. apply IH in H. discriminate.
Qed.
Lemma comparePath_sym a : forall b, path_ok a -> path_ok b -> comparePath b a = CompOpp (comparePath a b).
Proof.
  induction a as [|q IH k i]; intros [|q' k' i'] Ha Hb; try reflexivity. cbn [comparePath].
  apply path_ok_inv in Ha as [Ha Hk]. apply path_ok_inv in Hb as [Hb Hk']. rewrite (IH q' Ha Hb).
  destruct (comparePath q q'); cbn [CompOpp]; try reflexivity.
  destruct k, k'; cbn [CompOpp]; try reflexivity; [apply compareKeys_sym; assumption|].
  rewrite N.compare_antisym. reflexivity.
Qed.
Lemma comparePath_cong a : forall b c, comparePath a b = Eq -> path_ok a -> path_ok b -> path_ok c -> comparePath a c = comparePath b c.
Proof.
  induction a as [|q IH k i]; intros [|q' k' i'] [|q2 k2 i2] E Ha Hb Hc; try reflexivity; try discriminate. cbn [comparePath] in *.
  apply path_ok_inv in Ha as [Ha Hk]. apply path_ok_inv in Hb as [Hb Hk']. apply path_ok_inv in Hc as [Hc Hk2].
  destruct (comparePath q q') eqn:F; try discriminate. rewrite (IH q' q2 F Ha Hb Hc). destruct (comparePath q' q2); try reflexivity.
  destruct k, k'; try discriminate.
  - apply compareKeys_eq in E. subst. reflexivity.
  - apply N.compare_eq_iff in E. subst. reflexivity.
Qed.
Lemma comparePath_trans a : forall b c, path_ok a -> path_ok b -> path_ok c ->
  comparePath a b = Lt -> comparePath b c = Lt -> comparePath a c = Lt.
Proof.
  induction a as [|q IH k i]; intros [|q' k' i'] [|q2 k2 i2] Ha Hb Hc A B; try discriminate; try reflexivity.
  cbn [comparePath] in *.
  apply path_ok_inv in Ha as [Ha Hk]. apply path_ok_inv in Hb as [Hb Hk']. apply path_ok_inv in Hc as [Hc Hk2].
  destruct (comparePath q q') eqn:F; try discriminate.
  - rewrite (comparePath_cong q q' q2 F Ha Hb Hc). destruct (comparePath q' q2); try discriminate; [|reflexivity].
    destruct k as [k|], k' as [k'|], k2 as [k2|]; try discriminate; try reflexivity.
    + pose proof (compareKeys_ok k k' Hk Hk') as C1. pose proof (compareKeys_ok k' k2 Hk' Hk2) as C2. rewrite A in C1. rewrite B in C2.
      pose proof (compareKeys_ok k k2 Hk Hk2) as C3. pose proof (klt_trans _ _ _ C1 C2) as T.
      destruct (compareKeys k k2); [subst; destruct (klt_irrefl _ T)|reflexivity|destruct (klt_irrefl _ (klt_trans _ _ _ T C3))].
    + rewrite N.compare_lt_iff in *. lia.
  - destruct (comparePath q' q2) eqn:G; try discriminate.
    + assert (G' : comparePath q2 q' = Eq) by (rewrite (comparePath_sym q' q2 Hb Hc), G; reflexivity).
      pose proof (comparePath_cong q2 q' q G' Hc Hb Ha) as E. rewrite (comparePath_sym q q2 Ha Hc), (comparePath_sym q q' Ha Hb), F in E.
      destruct (comparePath q q2); cbn in E; try discriminate. reflexivity.
    + rewrite (IH q' q2 Ha Hb Hc F G). reflexivity.
Qed.

Section CopyProof.
  Variable ptr cell : N.
  Fixpoint csteps (text : N -> list N) (p : cpath) : list step :=
    match p with
    | CRoot => []
    | CItem _ q (Some a) _ => csteps text q ++ [Key (text a)]
    | CItem _ q None i => csteps text q ++ [Idx i]
    end.
  Definition waddr (w : write) : N := match w with WPointer a => a | WCell a => a | WText a _ => a end.
  Definition wsize (w : write) : N := match w with WPointer _ => ptr | WCell _ => cell | WText _ t => N.of_nat (length t) end.
  Definition inside (lo hi : N) (w : write) : Prop := lo <= waddr w /\ waddr w + wsize w <= hi.
  Fixpoint plen (p : path) : N := match p with PRoot => 0 | PItem q _ _ => plen q + 1 end.
  Fixpoint tlen (p : path) : N := match p with PRoot => 0 | PItem q (Some _) i => tlen q + i | PItem q None _ => tlen q end.
  Lemma sizeLoop_ok p : forall req len, sizeLoop cell p req len = (req + cell * plen p + tlen p, len + plen p).
  Proof.
    induction p as [|q IH k i]; intros req len; cbn [sizeLoop plen tlen]; [f_equal; lia|]. rewrite IH. destruct k; f_equal; lia.
  Qed.
  Definition wdisjoint (w w' : write) : Prop := disjoint (waddr w) (wsize w) (waddr w') (wsize w').
  Lemma pairs_last w x : ForallOrdPairs wdisjoint w -> Forall (fun y => wdisjoint y x) w -> ForallOrdPairs wdisjoint (w ++ [x]).
  Proof.
    induction 1 as [|y w Hy _ IH]; intros F; cbn [app]; [repeat constructor|]. apply Forall_cons_iff in F as [F1 F2].
    constructor; [|apply IH; exact F2]. apply Forall_app. split; [exact Hy|]. constructor; [exact F1|constructor].
  Qed.
  (** cells and texts in two areas *)
  Lemma copy_layout p : well p -> forall trg str, trg + cell * plen p <= str ->
    let (out, w) := copyRecurse cell trg str p in
    Forall (fun x => match x with
      | WCell _ => inside trg (trg + cell * plen p) x
      | WText _ _ => inside str (str + tlen p) x
      | WPointer _ => False end) w /\ ForallOrdPairs wdisjoint w.
  Proof.
    intros W. induction W as [|q k W IH|q i W IH]; intros trg str H.
    - cbn. split; constructor.
    - cbn [copyRecurse pathKey plen tlen] in *. specialize (IH (trg + cell) (str + N.of_nat (length k)) ltac:(lia)).
      destruct (copyRecurse cell (trg + cell) (str + N.of_nat (length k)) q) as [out w]. destruct IH as [A B]. split.
      + constructor; [unfold inside; cbn [waddr wsize]; lia|]. apply Forall_app. split.
        * eapply Forall_impl; [|exact A]. intros [a|a|a t]; unfold inside; cbn [waddr wsize]; [tauto|lia|lia].
        * constructor; [unfold inside; cbn [waddr wsize]; lia|constructor].
      + constructor.
        * apply Forall_app. split; [|constructor; [unfold wdisjoint, disjoint; cbn [waddr wsize]; right; lia|constructor]].
          eapply Forall_impl; [|exact A]. intros [a|a|a t]; unfold inside, wdisjoint, disjoint; cbn [waddr wsize]; [tauto|lia|lia].
        * apply pairs_last; [exact B|]. eapply Forall_impl; [|exact A].
          intros [a|a|a t]; unfold inside, wdisjoint, disjoint; cbn [waddr wsize]; [tauto|lia|lia].
    - cbn [copyRecurse pathIndex plen tlen] in *. specialize (IH (trg + cell) str ltac:(lia)).
      destruct (copyRecurse cell (trg + cell) str q) as [out w]. destruct IH as [A B]. split.
      + apply Forall_app. split.
        * eapply Forall_impl; [|exact A]. intros [a|a|a t]; unfold inside; cbn [waddr wsize]; [tauto|lia|lia].
        * constructor; [unfold inside; cbn [waddr wsize]; lia|constructor].
      + apply pairs_last; [exact B|]. eapply Forall_impl; [|exact A].
        intros [a|a|a t]; unfold inside, wdisjoint, disjoint; cbn [waddr wsize]; [tauto|lia|lia].
  Qed.
  (** every text that is pointed to was written, and the steps are those of the path *)
  Lemma copy_steps p : well p -> forall text trg str,
    let (out, w) := copyRecurse cell trg str p in
    (forall a t, In (WText a t) w -> text a = t) -> csteps text out = steps p.
  Proof.
    intros W text. induction W as [|q k W IH|q i W IH]; intros trg str; [intros _; reflexivity|..].
    - cbn [copyRecurse pathKey]. specialize (IH (trg + cell) (str + N.of_nat (length k))).
      destruct (copyRecurse cell (trg + cell) (str + N.of_nat (length k)) q) as [out w]. intros T. cbn [csteps steps]. rewrite IH.
      + cbn [pathKey steps]. rewrite (T str k (or_introl eq_refl)). reflexivity.
      + intros a t H. apply T. right. apply in_or_app. left. exact H.
    - cbn [copyRecurse pathIndex]. specialize (IH (trg + cell) str).
      destruct (copyRecurse cell (trg + cell) str q) as [out w]. intros T. cbn [csteps steps]. rewrite IH; [reflexivity|].
      intros a t H. apply T. apply in_or_app. left. exact H.
  Qed.
End CopyProof.
Lemma deleteLoop_endless cell fuel : forall p req, deleteLoop cell fuel false p req = NoFuel.
Proof. induction fuel as [|f IH]; intros p req; [reflexivity|]. cbn [deleteLoop]. destruct p; apply IH. Qed.
