(** Properties of thread variables. *)
From Verif Require Import Common Tls_Spec Heap_Model Tls_Model Tls_Proof TlsAlloc_Proof.
From Coq Require Import Permutation.

(** all calls use variables that have a place in the table of the thread: the
    table of the main thread has no limit, the one of a thread started by the
    library has a place for the variables that existed when it was started *)
Definition inTable (c : option nat) (o : op) : Prop :=
  match c with None => True | Some n => below n o end.

(** C519: variables that exist at the same time have different indexes; the table
    never needs more places than the largest number of variables that existed
    at once, and a thread started now has a place for all of them *)
Theorem tls_indexes : forall l, exists a held peak, aRun l newAlloc [] 0 = Ok (a, held, peak) /\
  NoDup held /\ Forall (fun i => i < indexes a) held /\ indexes a <= peak.
Proof.
  intros l. destruct (aRun_ok l newAlloc [] 0 ainv_new) as (a & held & peak & E & Fu & Pe & Np & Lp).
  exists a, held, peak. split; auto.
  assert (N : NoDup (arr (freeList a) ++ held)).
  { eapply Permutation_NoDup; [apply Permutation_sym, Pe|apply seq_NoDup]. }
  split; [|split; auto].
  - clear - N. induction (arr (freeList a)) as [|x xs IH]; auto. apply IH. inversion N; auto.
  - apply Forall_forall. intros i Hi. assert (X : In i (seq 0 (nextIndex a))).
    { eapply Permutation_in; [exact Pe|]. apply in_app_iff. auto. }
    apply in_seq in X. unfold indexes. lia.
Qed.
Print Assumptions tls_indexes.
Example tls_indexes_example : exists a,
  aRun [Declare_; Declare_; Declare_; Destroy 2; Destroy 1; Destroy 0; Declare_; Declare_; Declare_] newAlloc [] 0
    = Ok (a, [2; 0; 1], 3) /\ indexes a = 3.
Proof. eexists. split; reflexivity. Qed.

(** C520: a variable has the value set last; unset and clear make it NULL; other
    variables do not change; each value with a delete function that is not in the
    table any more was passed to it exactly once, the ones in the table were not
    (delete functions that do not use thread variables) *)
Theorem tls_refines : forall c prog, Forall (inTable c) prog ->
  exists s', (exists f0, forall f, f0 <= f -> run (fun _ => []) f prog (start c) = Ok s') /\
    (forall i, getVar s' i = applyAll noVars prog i) /\
    Permutation (puts s') (dels s' ++ map fst (filter snd (tab s'))).
Proof.
  intros c prog F.
  destruct (program_ok (fun _ => []) c (fun _ => Forall_nil _) (fun _ => Forall_nil _) prog (start c))
    as (s' & E & _ & G & R); auto.
  exists s'. split; auto. split; [|apply G; constructor].
  intros i. rewrite R by auto. unfold applyAll.
  assert (Y : forall l m m', (forall j, m j = m' j) -> forall j, fold_left apply1 l m j = fold_left apply1 l m' j).
  { clear. induction l as [|o l IH]; intros m m' H j; cbn [fold_left]; auto. apply IH. intros i.
    destruct o; cbn [apply1]; auto; destruct (i =? _); auto. }
  apply Y. intros [|j]; reflexivity.
Qed.
Print Assumptions tls_refines.
Example tls_refines_example : exists s',
  run (fun _ => []) 20 [Set_ 2 7 true; Set_ 0 5 false; Raw 2 8 true; Set_ 1 9 true; Unset 1; Clear; Set_ 1 4 true] (start (Some 3)) = Ok s' /\
  puts s' = [4; 9; 8; 7] /\ dels s' = [8; 9; 7] /\ getVar s' 1 = 4 /\ getVar s' 0 = 0 /\
  Forall (inTable (Some 3)) [Set_ 2 7 true; Set_ 0 5 false; Raw 2 8 true; Set_ 1 9 true; Unset 1; Clear; Set_ 1 4 true].
Proof. eexists. split; [vm_compute; reflexivity|]. do 4 (split; [reflexivity|]). repeat constructor; cbn; lia. Qed.

(** C521: the delete functions may use the variables of the thread as long as the
    values they set have delete functions that do nothing: the calls end, every
    value with a delete function is deleted exactly once or still in the table,
    and a variable that was just set has the value *)
Theorem tls_values : forall react c prog,
  tame react -> (forall v, Forall (inTable c) (react v)) -> Forall (inTable c) prog -> Forall notRaw prog ->
  exists s', (exists f0, forall f, f0 <= f -> run react f prog (start c) = Ok s') /\
    Permutation (puts s') (dels s' ++ map fst (filter snd (tab s'))) /\
    forall i v d, inTable c (Set_ i v d) -> exists s'',
      (exists f0, forall f, f0 <= f -> run react f (prog ++ [Set_ i v d]) (start c) = Ok s'') /\ getVar s'' i = v.
Proof.
  intros react c prog T RF F N.
  destruct (program_ok react c RF T prog (start c)) as (s' & (f1 & E) & C & G & _); auto.
  exists s'. split; eauto. split; [apply G; constructor|].
  intros i v d Fi. destruct (op_ok react c RF T (Set_ i v d) s') as (s2 & LT & _ & _ & V & _); auto; [left; exact I|].
  destruct (LT 1 [] s2 eq_refl) as (g & E2).
  destruct (run_app react c RF T prog [Set_ i v d] (start c) s' f1 (E f1 (le_n _)) g s2 E2) as (f & E3).
  exists s2. split; auto. exists f. intros h Hh. eapply run_mono; eauto.
Qed.
Print Assumptions tls_values.

(** 1 sets variable 0 again, 2 sets variable 5 (a longer table) and unsets 0 *)
Definition busy (v : nat) : list op :=
  match v with 1 => [Set_ 0 11 true; Set_ 3 12 true] | 2 => [Set_ 5 13 true; Unset 0] | _ => [] end.
Example tls_values_example :
  tame busy /\ exists s', run busy 30 [Set_ 0 1 true; Set_ 3 2 true; Set_ 0 7 true] (start None) = Ok s' /\
  getVar s' 0 = 7 /\ getVar s' 3 = 12 /\ getVar s' 5 = 13 /\ dels s' = [11; 2; 1].
Proof.
  split; [intros [|[|[|v]]]; repeat apply Forall_cons; try apply Forall_nil; try exact I; right; reflexivity|].
  eexists. split; [vm_compute; reflexivity|]. repeat split.
Qed.

(** C522: clear, called when a thread ends, deletes all values that are in the
    table, also those that delete functions put there while it runs, each
    exactly once, and ends *)
Theorem tls_clear : forall react c prog,
  tame react -> (forall v, Forall (inTable c) (react v)) -> Forall (inTable c) prog -> Forall notRaw prog ->
  exists s', (exists f0, forall f, f0 <= f -> run react f (prog ++ [Clear]) (start c) = Ok s') /\
    Permutation (puts s') (dels s') /\ forall i, getVar s' i = 0.
Proof.
  intros react c prog T RF F N.
  destruct (program_ok react c RF T prog (start c)) as (s' & (f1 & E) & C & G & _); auto.
  destruct (op_ok react c RF T Clear s') as (s2 & LT & _ & G2 & Z & _); auto; [unfold fits; destruct c; exact I|left; exact I|].
  destruct (LT 1 [] s2 eq_refl) as (g & E2).
  destruct (run_app react c RF T prog [Clear] (start c) s' f1 (E f1 (le_n _)) g s2 E2) as (f & E3).
  exists s2. split; [exists f; intros h Hh; eapply run_mono; eauto|]. split.
  - assert (G0 : good s2) by (apply G2, G; constructor). unfold good in G0.
    assert (N0 : owned (tab s2) = []).
    { refine (f_equal (map fst) (filter_none snd (tab s2) _)). intros j. rewrite Z. reflexivity. }
    rewrite N0, app_nil_r in G0. exact G0.
  - intros i. unfold getVar. rewrite Z. reflexivity.
Qed.
Print Assumptions tls_clear.
Example tls_clear_example : exists s',
  run busy 30 [Set_ 0 1 true; Set_ 3 2 true; Clear] (start None) = Ok s' /\
  dels s' = [13; 12; 11; 2; 1] /\ puts s' = [12; 13; 11; 2; 1].
Proof. eexists. split; [vm_compute; reflexivity|]. split; reflexivity. Qed.

(** C523: a delete function that sets its own variable again loses the value when
    it runs inside a set: the value is overwritten and never deleted *)
Definition again (v : nat) : list op :=
  match v with 1 => [Set_ 0 2 true] | 2 => [Set_ 0 3 true] | _ => [] end.
Theorem tls_again_refuted :
  exists s', run again 30 [Set_ 0 1 true; Set_ 0 9 true; Clear] (start None) = Ok s' /\
    In 3 (puts s') /\ ~ In 3 (dels s') /\ (forall i, getVar s' i = 0).
Proof.
  eexists. split; [vm_compute; reflexivity|]. split; [cbn; auto|]. split.
  - cbn. intros H. repeat (destruct H as [H|H]; [discriminate H|]). destruct H.
  - intros [|[|i]]; reflexivity.
Qed.
Print Assumptions tls_again_refuted.

(** C524: moving the variables to another table passes each value to its delete
    function although the other table has it now, and deletes it again later *)
Theorem tls_move_refuted :
  exists old new old' new' new'',
    run (fun _ => []) 5 [Set_ 0 7 true] (start None) = Ok old /\ start None = new /\
    moveTo old new = Ok (old', new') /\ getVar new' 0 = 7 /\ dels old' = [7] /\
    run (fun _ => []) 5 [Clear] new' = Ok new'' /\ dels new'' = [7].
Proof. do 5 eexists. do 6 (split; [vm_compute; reflexivity|]). vm_compute. reflexivity. Qed.
Print Assumptions tls_move_refuted.

(** C525: setting a variable that is younger than the thread throws, for every
    state of its table; setValue then leaves the copy of the value to nobody,
    while the init of ThreadVarInit deletes it *)
Theorem tls_value_leak_refuted : forall react f n s i v, 2 <= f -> cap s = Some n -> length (tab s) <= n -> n <= i ->
  setValue react f i v s = (Throw, [v]) /\ init react f i v s = (Throw, []).
Proof.
  intros react f n s i v Hf C L H. destruct f as [|f]; [lia|].
  assert (E : run react (S f) [Set_ i v true] s = Throw).
  { cbn [run]. unfold unsetVar. destruct (Nat.leb_spec (length (tab s)) i); [|lia]. cbn [obind].
    unfold setVar. rewrite andb_false_r. cbn [andb]. destruct (Nat.leb_spec (length (tab s)) i); [|lia].
    unfold grow. rewrite C. destruct (Nat.ltb_spec n (i + 1)); [|lia]. reflexivity. }
  unfold setValue, init. rewrite E. auto.
Qed.
Print Assumptions tls_value_leak_refuted.
Example tls_value_leak_example : setValue (fun _ => []) 3 2 9 (start (Some 2)) = (Throw, [9]).
Proof. reflexivity. Qed.
