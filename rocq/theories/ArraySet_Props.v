(** Properties of ArraySet (C365 to C372). *)
From Coq Require Import Sorting.Permutation Sorting.Sorted.
From Verif Require Import Common ArraySet_Spec ArraySet_Model ArraySet_Proof.

Definition ops1 : list (@op nat) := [Add 5; Add 3; Insert 0 4; MakeOrdered; Insert 1 7; Add 6; Insert 9 9; Erase 0; Add 1; Trunc 1; EnableDuplicates true; Add 2; MakeOrdered; Add 0; Insert 0 1].
Lemma ltb_weak : strict_weak Nat.ltb.
Proof. split; intros *; rewrite ?Nat.ltb_lt, ?Nat.ltb_ge; lia. Qed.

(** A set made by operations, starting with an empty set or with non-empty data whose order is detected; insert and erase of more
    items at once are left out, see C369 and C370 *)
Inductive reached {A} (cmp : A -> A -> bool) : st -> Prop :=
| r_empty l s : Forall plain l -> run cmp l init = Ok s -> reached cmp s
| r_data a t s0 l s : detect cmp (a :: t) = Ok s0 -> Forall plain l -> run cmp l s0 = Ok s -> reached cmp s.
Lemma reached_si {A} (cmp : A -> A -> bool) d s : strict_weak cmp -> reached cmp s -> SI cmp d s.
Proof.
  intros [H1 H2] [l s' P E|a t s0 l s' D P E].
  - destruct (run_ok cmp d H1 H2 l init P (init_si cmp d H1 H2)) as (s2 & E2 & V). rewrite E in E2. injection E2 as <-. exact V.
  - destruct (detect_ok cmp d H1 H2 a t) as (s2 & D2 & V0 & _). rewrite D in D2. injection D2 as <-. destruct (run_ok cmp d H1 H2 l s0 P V0) as (s2 & E2 & V). rewrite E in E2. injection E2 as <-. exact V.
Qed.

(** C365: find gives no item if and only if no item of the set equals the object; otherwise getPos() is the position of an
    equal item, else it is the place in the ordered part *)
Theorem as_find : forall A (cmp : A -> A -> bool) s obj, strict_weak cmp -> reached cmp s -> exists r p, find cmp s obj = Ok (r, p) /\
  match r with
  | Some _ => exists v, nth_error (items s) p = Some v /\ same cmp obj v
  | None => (forall v, In v (items s) -> ~ same cmp obj v) /\ p <= orderedCount s /\
            (forall i v, nth_error (items s) i = Some v -> i < p -> cmp v obj = true) /\
            (forall i v, nth_error (items s) i = Some v -> p <= i -> i < orderedCount s -> cmp obj v = true)
  end.
Proof. intros A cmp s obj W R. apply (find_ok cmp obj); [apply W|apply W|]. apply reached_si; assumption. Qed.
Example as_find_ex : strict_weak Nat.ltb /\ exists s, reached Nat.ltb s /\ items s = [1; 2; 4; 5; 6; 7; 0] /\ orderedCount s = 6 /\ find Nat.ltb s 5 = Ok (Some 5, 3) /\ find Nat.ltb s 3 = Ok (None, 2).
Proof.
  split; [exact ltb_weak|]. eexists. split; [apply (r_empty _ ops1); [unfold ops1; repeat constructor|vm_compute; reflexivity]|]. vm_compute. repeat split.
Qed.
Example as_find_ex2 : exists s, reached Nat.ltb s /\ items s = [1; 3; 8; 9; 2] /\ orderedCount s = 3.
Proof. eexists. split; [eapply (r_data _ 1 [3; 8; 9; 2] _ []); [vm_compute; reflexivity|constructor|reflexivity]|]. split; reflexivity. Qed.

(** C366: makeOrdered puts the same items to ascending order, and isOrdered() holds then *)
Theorem as_order : forall A (cmp : A -> A -> bool) (some : A) s, strict_weak cmp -> reached cmp s -> exists s', exec cmp MakeOrdered s = Ok s' /\
  Permutation (items s) (items s') /\ ascending cmp (items s') /\ isOrdered s' = true.
Proof.
  intros A cmp d s W R. destruct (makeOrdered_ok cmp d (proj1 W) (proj2 W) s) as (s' & E & P & U & O & _); [apply reached_si; assumption|].
  exists s'. split; [exact E|]. split; [exact P|]. split; [apply (upto_sorted cmp d (proj1 W) (proj2 W)); exact U|]. unfold isOrdered. rewrite O. apply Nat.eqb_refl.
Qed.
Definition many := [14; 3; 17; 40; 2; 9; 33; 21; 7; 5; 28; 11; 36; 1; 19; 25; 30; 8; 12; 4; 6; 10; 13; 15; 16; 18; 20; 22; 23; 24; 26; 27; 29; 31].
Example as_order_ex : match run Nat.ltb (map Add many ++ [MakeOrdered]) init with Ok s => firstn 5 (items s) = [1; 2; 3; 4; 5] /\ length (items s) = 34 | _ => False end.
Proof. vm_compute. repeat split. Qed.

(** C367: find points to an item equal to the object: false for an item behind the ordered part *)
Theorem as_ptr_refuted : exists s v p, reached Nat.ltb s /\ find Nat.ltb s 3 = Ok (Some v, p) /\ ~ same Nat.ltb 3 v.
Proof.
  eexists. eexists. eexists. split; [apply (r_empty _ [Add 1; Add 5; MakeOrdered; Add 7; Add 3]); [repeat constructor|vm_compute; reflexivity]|].
  split; [vm_compute; reflexivity|]. intros [S1 S2]. vm_compute in *. discriminate.
Qed.

(** C368: items are distinct after makeOrdered, unless duplicates are enabled: false *)
Theorem as_dups_refuted : exists s s', reached Nat.ltb s /\ duplicates s = false /\ exec Nat.ltb MakeOrdered s = Ok s' /\ ~ distinct Nat.ltb (items s').
Proof.
  eexists. eexists. split; [apply (r_empty _ [Add 1; Add 2; Add 1]); [repeat constructor|vm_compute; reflexivity]|]. split; [reflexivity|]. split; [vm_compute; reflexivity|].
  intros D. apply (D 0 1 1 1); auto. split; reflexivity.
Qed.

(** C369: after more items are inserted at once, find gives an item that is in the set: false *)
Theorem as_insert_refuted : exists s s' p, reached Nat.ltb s /\ exec Nat.ltb (InsertN 4 9 2) s = Ok s' /\ In 1 (items s') /\ find Nat.ltb s' 1 = Ok (None, p).
Proof.
  eexists. eexists. eexists. split; [apply (r_empty _ [Add 5; Add 7; Add 8; Add 1]); [repeat constructor|vm_compute; reflexivity]|]. split; [vm_compute; reflexivity|]. split; [cbn; auto 6|vm_compute; reflexivity].
Qed.

(** C370: erase(at, count) removes [count] items: false, it removes one *)
Theorem as_erase_refuted : exists s s', reached Nat.ltb s /\ exec Nat.ltb (EraseN 1 2) s = Ok s' /\ length (items s) = 4 /\ length (items s') <> 2.
Proof.
  eexists. eexists. split; [apply (r_empty _ [Add 5; Add 7; Add 8; Add 1]); [repeat constructor|vm_compute; reflexivity]|]. split; [vm_compute; reflexivity|]. split; [reflexivity|discriminate].
Qed.

(** C371: a set made of ordered data with detectOrder is ordered: false, and an empty array is read *)
Theorem as_detect_refuted : (exists s, detect Nat.ltb [1; 2; 3] = Ok s /\ isOrdered s = false) /\ detect Nat.ltb [] = Undef.
Proof. split; [eexists; split; [vm_compute; reflexivity|reflexivity]|reflexivity]. Qed.

(** C372: what the operations do to the items.  [None]: an exception *)
Definition effect {A} (o : @op A) (l : list A) (r : option (list A)) : Prop :=
  match o with
  | Add x => r = Some (l ++ [x])
  | Insert a x => if a <=? length l then r = Some (firstn a l ++ x :: skipn a l) else r = None
  | Erase a => if a <=? length l then r = Some (firstn a l ++ skipn (S a) l) else r = None
  | Trunc n => r = Some (firstn (length l - n) l)
  | Clear => r = Some []
  | MakeOrdered => exists l', r = Some l' /\ Permutation l l'
  | EnableDuplicates _ => r = Some l
  | InsertN _ _ _ | EraseN _ _ => True
  end.
Theorem as_list : forall A (cmp : A -> A -> bool) (some : A) s o, strict_weak cmp -> reached cmp s -> plain o ->
  exists r, (exec cmp o s = match r with Some s' => Ok s' | None => Throw end) /\ effect o (items s) (option_map items r).
Proof.
  intros A cmp d s o W R P. pose proof (reached_si cmp d s W R) as V. destruct o as [x|a x|a x n|a|a n|n| | |b]; cbn [effect exec]; try destruct P.
  - eexists (Some _). split; reflexivity.
  - destruct (a <=? length (items s)) eqn:Q; [apply Nat.leb_le in Q|apply Nat.leb_gt in Q].
    + destruct (insert_ok cmp d (proj1 W) (proj2 W) a x s V Q) as (s' & E & _ & I). exists (Some s'). split; [exact E|]. cbn. rewrite I. reflexivity.
    + exists None. split; [|reflexivity]. unfold insert. rewrite (proj2 (Nat.ltb_lt _ _) Q). reflexivity.
  - destruct (a <=? length (items s)) eqn:Q; [apply Nat.leb_le in Q|apply Nat.leb_gt in Q].
    + destruct (erase_ok cmp d (proj1 W) (proj2 W) a s V Q) as (s' & E & _ & I). exists (Some s'). split; [exact E|]. cbn [option_map]. rewrite I. unfold del. rewrite Nat.add_1_r. reflexivity.
    + exists None. split; [|reflexivity]. unfold erase. rewrite (proj2 (Nat.ltb_lt _ _) Q). reflexivity.
  - eexists (Some _). split; reflexivity.
  - eexists (Some _). split; reflexivity.
  - destruct (makeOrdered_ok cmp d (proj1 W) (proj2 W) s V) as (s' & E & Q & _). exists (Some s'). split; [exact E|]. cbn. eauto.
  - eexists (Some _). split; reflexivity.
Qed.
Example as_list_ex : match run Nat.ltb [Add 5; Add 3; Insert 1 4] init with Ok s => items s = [5; 4; 3] /\ match exec Nat.ltb (Erase 0) s with Ok s' => items s' = [4; 3] | _ => False end | _ => False end.
Proof. vm_compute. repeat split. Qed.

Print Assumptions as_find.
Print Assumptions as_order.
Print Assumptions as_ptr_refuted.
Print Assumptions as_dups_refuted.
Print Assumptions as_insert_refuted.
Print Assumptions as_erase_refuted.
Print Assumptions as_detect_refuted.
Print Assumptions as_list.
