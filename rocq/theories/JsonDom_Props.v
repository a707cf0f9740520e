(** Property theorems for JSON values in memory (C135 - C141). *)
From Verif Require Import Common Json_Spec Json_Model JsonNorm_Proof JsonDom_Spec JsonDom_Model JsonDom_Proof.
Local Open Scope N_scope.

(** C135.  Every history of operations other than [clear] on a new object is a history of a
    finite map: get, set, add, erase, length and enumeration in order. *)
Theorem json_object_map_partial : forall ops, Forall oname_ok ops -> ~ In OClear ops ->
  exists g, ohist (fun _ => None) ops (snd (orun ops newObj)) g.
Proof.
  intros ops Hn Hc. eexists. apply orun_ok; [|exact Hn| |reflexivity].
  - repeat split. constructor.
  - apply Forall_forall. intros op H. destruct op; try reflexivity. contradiction.
Qed.
Print Assumptions json_object_map_partial.
(** C135 is refuted for [clear]: the length of a cleared object is that of before *)
Lemma lists_empty l : lists (fun _ => None) l -> l = [].
Proof.
  intros [_ H]. destruct l as [|[k v] l]; [reflexivity|]. specialize (H k). cbn in H.
  destruct (list_eq_dec N.eq_dec k k); congruence.
Qed.
Theorem json_object_clear_refuted : forall ops op g, Forall oname_ok ops -> ~ In OClear ops ->
  In op ops -> (exists k v, op = OReplace k (Some v)) ->
  (forall op', In op' ops -> match op' with OErase _ | OAdd _ None | OReplace _ None => False | _ => True end) ->
  ~ ohist (fun _ => None) (ops ++ [OClear; OLength]) (snd (orun (ops ++ [OClear; OLength]) newObj)) g.
Proof.
  intros ops op g Hn Hc Hin (k & v & ->) Hop H.
  assert (Hc' : Forall (fun op => is_clear op = false) ops) by (apply Forall_forall; intros x Hx; destruct x; try reflexivity; contradiction).
  assert (Q : forall ops o, snd (orun (ops ++ [OClear; OLength]) o) = snd (orun ops o) ++ [ADone; ANumber (count (fst (orun ops o)))]).
  { clear. induction ops as [|op ops IH]; intros o; [reflexivity|]. cbn [app orun]. destruct (oexec op o) as [o1 a]. specialize (IH o1).
    destruct (orun (ops ++ [OClear; OLength]) o1), (orun ops o1). cbn [snd fst app] in *. rewrite IH. reflexivity. }
  rewrite Q in H. clear Q.
  assert (L : forall ops l f x, length l = length ops -> ohist f (ops ++ [OClear; OLength]) (l ++ [ADone; ANumber x]) g -> x = 0).
  { clear. induction ops as [|op ops IH]; intros [|a l] f x E H; try discriminate.
    - cbn [app] in H. inversion H as [|? ? f1 ? ? ? ? S1 H1]; subst. inversion S1; subst. inversion H1 as [|? ? f2 ? ? ? ? S2 H2]; subst.
      inversion S2 as [| | | | | | |l Hl|]; subst. rewrite (lists_empty l Hl). reflexivity.
    - cbn [app] in H. inversion H as [|? ? f1 ? ? ? ? S1 H1]; subst. eapply IH; [|exact H1]. cbn in E. lia. }
  assert (Len : forall ops o, length (snd (orun ops o)) = length ops).
  { clear. induction ops as [|op ops IH]; intros o; [reflexivity|]. cbn [orun]. destruct (oexec op o) as [o1 a]. specialize (IH o1).
    destruct (orun ops o1). cbn [snd length] in *. lia. }
  apply L in H; [|apply Len].
  assert (K : forall ops o, oinv o -> Forall oname_ok ops -> Forall (fun op => is_clear op = false) ops ->
     (forall op', In op' ops -> match op' with OErase _ | OAdd _ None | OReplace _ None => False | _ => True end) ->
     find k (fields o) <> None \/ In (OReplace k (Some v)) ops -> count (fst (orun ops o)) <> 0).
  { clear. induction ops as [|op ops IH]; intros o Hi Hn Hc Hop Hk.
    - cbn [orun fst]. destruct Hk as [Hk|[]]. destruct Hi as (_ & _ & ->). apply keys_find in Hk. destruct (fields o); [destruct Hk|cbn [length]; lia].
    - apply Forall_cons_iff in Hn as [Hn1 Hn2]. apply Forall_cons_iff in Hc as [Hc1 Hc2]. cbn [orun].
      destruct (oexec_ok op o (fun k => find k (fields o)) Hi Hn1 Hc1 (fun _ => eq_refl)) as (f1 & S & I1 & F1).
      destruct (oexec op o) as [o1 a] eqn:E. cbn [fst snd] in *.
      specialize (IH o1 I1 Hn2 Hc2 (fun op' H => Hop op' (or_intror H))). destruct (orun ops o1) as [o2 l]. cbn [fst] in *. apply IH.
      destruct Hk as [Hk|[->|Hk]]; [left|left|right; exact Hk].
      + rewrite <- F1. specialize (Hop op (or_introl eq_refl)). inversion S; subst; try contradiction; try exact Hk; try discriminate.
        * unfold oset. destruct (list_eq_dec N.eq_dec k k0); [discriminate|exact Hk].
        * unfold oset. destruct v0; [|contradiction]. destruct (list_eq_dec N.eq_dec k k0); [discriminate|exact Hk].
      + rewrite <- F1. inversion S; subst. unfold oset. destruct (list_eq_dec N.eq_dec k k); [discriminate|congruence]. }
  apply (K ops newObj) in H; [exact H| | | | |]; try assumption.
  - repeat split. constructor.
  - right. exact Hin.
Qed.
Print Assumptions json_object_clear_refuted.

(** C136 is refuted: of two values added without a name the second is always lost *)
Theorem json_add_unnamed_refuted : forall o v w, fields (addUnnamed (Some w) (addUnnamed (Some v) o)) = fields (addUnnamed (Some v) o).
Proof.
  intros o v w. cbn [addUnnamed add]. unfold insert. destruct (lookup unnamed (fields o)) as [u|] eqn:E; [rewrite E; reflexivity|].
  cbn [fields]. replace (lookup unnamed (insertField unnamed v (fields o))) with (Some v); [reflexivity|].
  symmetry. clear w. revert E. induction (fields o) as [|[k x] m IH]; intros E; cbn [insertField lookup] in *.
  - rewrite (proj2 (compareKeys_eq unnamed unnamed) eq_refl). reflexivity.
  - destruct (compareKeys unnamed k) eqn:C; [discriminate|..]; cbn [lookup].
    + rewrite (proj2 (compareKeys_eq unnamed unnamed) eq_refl). reflexivity.
    + rewrite C. apply IH. exact E.
Qed.
Print Assumptions json_add_unnamed_refuted.

(** C137.  Comparing a value without objects, 0 and "" with any other value tells exactly
    whether they are the same JSON value; every value equals itself. *)
Theorem json_equality_partial : forall textZero a b, exact a -> made b -> (eqNode textZero a b = true <-> den a = den b).
Proof. intros. apply eq_exact; assumption. Qed.
Print Assumptions json_equality_partial.
Theorem json_equality_reflexive : forall textZero a, eqNode textZero a a = true.
Proof. intros. apply eq_refl_node. Qed.
Print Assumptions json_equality_reflexive.
(** C137 is refuted: "" and 0 equal other values, but not the other way round ... *)
Theorem json_equality_refuted : forall textZero a b x, x = Node b KNull \/ x = Node b (KBool false) \/ x = Node b (KArr []) ->
  eqNode textZero (Node a KEmpty) x = true /\ eqNode textZero (Node a KZero) x = true /\
  eqNode textZero x (Node a KEmpty) = false /\ eqNode textZero x (Node a KZero) = false.
Proof. intros tz a b x [->|[->| ->]]; repeat split; reflexivity. Qed.
Print Assumptions json_equality_refuted.
(** ... and C138 is refuted: an object does not equal its clone, unless all members are
    null, booleans, 0 or "" *)
Theorem json_clone_refuted : forall textZero a m next, (exists k x, In (k, x) m /\ constant x = false /\ naddr x < next) ->
  let c := fst (clone next (Node a (KObj m))) in
  den c = den (Node a (KObj m)) /\ eqNode textZero (Node a (KObj m)) c = false.
Proof. intros. split; [apply clone_ok|apply clone_differs; assumption]. Qed.
Print Assumptions json_clone_refuted.
(** C138, the part that holds: a clone is the same JSON value, and equals an array that
    contains no objects, 0 and "" *)
Theorem json_clone_partial : forall next n, den (fst (clone next n)) = den n.
Proof. intros. apply clone_ok. Qed.
Print Assumptions json_clone_partial.

(** C139.  A path finds the value its steps lead to, in both forms. *)
Theorem json_path_finds : forall p v w, well p -> locate v (steps p) = Some w ->
  resolve valueAt p v = Ok (Some w) /\ resolve constValueAt p v = Ok (Some w).
Proof.
  intros p v w W L. split; apply resolve_ok; try assumption; [apply valueAt_ok|apply constValueAt_ok].
Qed.
Print Assumptions json_path_finds.
(** C139 is refuted for steps that lead nowhere: outside of an array the read-only form is
    undefined; a name looked up in an array is looked up in its first item; and a name that is
    an empty string without characters is the index 0 *)
Theorem json_path_missing_refuted : forall l i, N.of_nat (length l) <= i ->
  locate (JArr l) (steps (pathIndex PRoot i)) = None /\ resolve constValueAt (pathIndex PRoot i) (JArr l) = Undef.
Proof.
  intros l i H. cbn. unfold constValueAt, getEntry. assert (Q : nth_error l (N.to_nat i) = None) by (apply nth_error_None; lia).
  rewrite Q. split; reflexivity.
Qed.
Print Assumptions json_path_missing_refuted.
Theorem json_path_name_refuted : forall l m k w, find k m = Some w ->
  locate (JArr (JObj m :: l)) (steps (pathKey PRoot (Some k))) = None /\
  resolve valueAt (pathKey PRoot (Some k)) (JArr (JObj m :: l)) = Ok (Some w).
Proof. intros l m k w H. cbn. rewrite lookup_find, H. split; reflexivity. Qed.
Print Assumptions json_path_name_refuted.
Theorem json_path_null_name_refuted : forall l v, resolve valueAt (pathKey PRoot None) (JArr (v :: l)) = Ok (Some v).
Proof. intros l v. cbn. unfold valueAt, entryCount. replace (N.of_nat (length (v :: l)) <=? 0) with false by (symmetry; apply N.leb_gt; cbn; lia). reflexivity. Qed.
Print Assumptions json_path_null_name_refuted.

(** C140.  Comparing paths is a total order that agrees with equality of their steps. *)
Theorem json_path_order : forall a b c, well a -> well b -> well c -> path_ok a -> path_ok b -> path_ok c ->
  (comparePath a b = Eq <-> steps a = steps b) /\
  comparePath b a = CompOpp (comparePath a b) /\
  (comparePath a b = Lt -> comparePath b c = Lt -> comparePath a c = Lt).
Proof.
  intros a b c Wa Wb Wc Ha Hb Hc. split; [apply comparePath_eq; assumption|]. split; [apply comparePath_sym; assumption|].
  apply comparePath_trans; assumption.
Qed.
Print Assumptions json_path_order.

(** C141.  A copy of a path lies inside the memory asked for, its parts do not overlap, and
    reading it there gives the steps of the original. *)
Theorem json_path_copy : forall ptr cell base p, well p -> p <> PRoot ->
  let '(req, out, w) := copyPath ptr cell base p in
  Forall (inside ptr cell base (base + req)) w /\
  ForallOrdPairs (wdisjoint ptr cell) w /\
  forall text, (forall a t, In (WText a t) w -> text a = t) -> csteps text out = steps p.
Proof.
  intros ptr cell base p W Hp. unfold copyPath. destruct p as [|q k i] eqn:E; [congruence|]. rewrite <- E in *. clear E Hp.
  rewrite sizeLoop_ok. cbn [N.add]. pose proof (copy_layout ptr cell p W (base + ptr) (base + ptr + cell * plen p) ltac:(lia)) as L.
  pose proof (copy_steps cell p W) as S. specialize (S) with (trg := base + ptr) (str := base + ptr + cell * plen p).
  destruct (copyRecurse cell (base + ptr) (base + ptr + cell * plen p) p) as [out w]. destruct L as [A B]. repeat split.
  - constructor; [unfold inside; cbn [waddr wsize]; lia|]. eapply Forall_impl; [|exact A].
    intros [a|a|a t]; unfold inside; cbn [waddr wsize]; [tauto|lia|lia].
  - constructor; [|exact B]. eapply Forall_impl; [|exact A].
    intros [a|a|a t]; unfold inside, wdisjoint, disjoint; cbn [waddr wsize]; [tauto|lia|lia].
  - intros text T. apply S. intros a t H. apply T. right. exact H.
Qed.
Print Assumptions json_path_copy.
(** C142 is refuted: deleting a copied path never ends *)
Theorem json_path_delete_refuted : forall ptr cell p fuel, p <> PRoot -> deletePath ptr cell fuel p = NoFuel.
Proof. intros ptr cell p fuel H. destruct p; [congruence|]. apply deleteLoop_endless. Qed.
Print Assumptions json_path_delete_refuted.

Example sample_history : snd (orun [OAdd [98] (Some JNull); OAdd [97] (Some (JInt 1)); OAdd [98] (Some (JInt 2)); OReplace [97] (Some (JInt 3));
    OList; OErase [98]; OLength; OGet [97]] newObj) =
  [ADone; ADone; ADone; AValue (Some (JInt 1)); AMembers [([97], JInt 3); ([98], JNull)]; ADone; ANumber 1; AValue (Some (JInt 3))].
Proof. vm_compute. reflexivity. Qed.
Example sample_clear : snd (orun [OReplace [98] (Some JNull); OClear; OLength] newObj) = [AValue None; ADone; ANumber 1].
Proof. vm_compute. reflexivity. Qed.
Example sample_equal : exact (Node 1 (KArr [Node 2 (KInt 5); Node 3 (KStr [97])])) /\
  eqNode (fun _ => false) (Node 1 (KArr [Node 2 (KInt 5); Node 3 (KStr [97])])) (Node 4 (KArr [Node 5 (KInt 5); Node 6 (KStr [97])])) = true.
Proof. split; [|reflexivity]. apply exact_arr. repeat constructor; discriminate. Qed.
Example sample_clone : eqNode (fun _ => false) (Node 1 (KObj [([97], Node 2 (KInt 5))])) (fst (clone 9 (Node 1 (KObj [([97], Node 2 (KInt 5))])))) = false.
Proof. reflexivity. Qed.
Definition sample_path : path := pathIndex (pathKey PRoot (Some [97; 98])) 1.
Example sample_found : well sample_path /\ path_ok sample_path /\
  locate (JObj [([97; 98], JArr [JNull; JInt 7])]) (steps sample_path) = Some (JInt 7).
Proof. split; [repeat constructor|]. split; [repeat constructor|reflexivity]. Qed.
Example sample_copy : copyPath 8 24 1000 sample_path =
  (58, CItem 1008 (CItem 1032 CRoot (Some 1056) 2) None 1, [WPointer 1000; WText 1056 [97; 98]; WCell 1032; WCell 1008]).
Proof. reflexivity. Qed.
