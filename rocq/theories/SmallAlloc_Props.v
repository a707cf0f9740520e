(** Properties of AutoArray with SmallAlloc (C361 to C364).

    [spec_op] (SmallAlloc_Proof.v) names the operation on lists that an operation stands for, [has_memory] tells whether the
    allocator has memory for it. *)
From Coq Require Import ZArith.
From Verif Require Import Common SmallAlloc_Spec SmallAlloc_Model SmallAlloc_Proof.

Definition ops1 : list op := [Add false true 1; Add false true 2; Add false true 3; Add true true 4; Swap false true; Add true true 5; Add true true 6; Add true true 7; Add true false 8;
  Trunc true 4; Reserve false true 9; Swap true true; FreeExtra true true; Trunc false 1; Swap false true; FreeExtra false true]%Z.

(** C361: two arrays with SmallAlloc over the system heap hold what two lists would hold, nothing undefined happens, and an
    exception is thrown only when the system has no memory *)
Theorem sa_list : forall cnt l, exists ts s, run cnt l (init cnt false) = Ok (ts, s) /\ length ts = length l /\
  (items (fst_ s) (wo s), items (snd_ s) (wo s)) = (let (a, b) := srun (combine (map spec_op l) ts) ([], []) in (Ok a, Ok b)) /\
  (forall i o, nth_error l i = Some o -> nth_error ts i = Some true -> has_memory o = false).
Proof.
  intros cnt l. destruct (run_ok cnt l _ _ (init_si cnt)) as (ts & s & R & L & [A B _] & T). exists ts, s. split; [exact R|]. split; [exact L|]. split; [|exact T].
  destruct (srun _ _) as [a b]. cbn [fst snd] in *. rewrite (items_ok _ _ _ _ A), (items_ok _ _ _ _ B). reflexivity.
Qed.
Example sa_list_ex : match run 2 ops1 (init 2 false) with
  | Ok (ts, s) => ts = [false; false; false; false; false; false; false; false; true; false; false; false; false; false; false; false] /\
      items (fst_ s) (wo s) = Ok [4]%Z /\ items (snd_ s) (wo s) = Ok [1]%Z
  | _ => False end.
Proof. vm_compute. repeat split. Qed.

(** C362: when both arrays are destroyed, every block was freed exactly once *)
Theorem sa_noleak : forall cnt l ts s, run cnt l (init cnt false) = Ok (ts, s) -> exists w, destroy s = Ok w /\ mem w = [].
Proof. intros cnt l ts s E. destruct (run_ok cnt l _ _ (init_si cnt)) as (ts' & s' & R & _ & V & _). rewrite E in R. injection R as <- <-. apply (destroy_ok cnt s _ V). Qed.
Example sa_noleak_ex : match run 2 [Add false true 1; Add false true 2; Add false true 3; Add false true 4; Add true true 5]%Z (init 2 false) with
  Ok (_, s) => length (mem (wo s)) = 1%nat | _ => False end.
Proof. vm_compute. reflexivity. Qed.

(** C363: an item that fits to the reserved count is added without any use of the heap *)
Theorem sa_small : forall cnt l ts s (second : bool) x, run cnt l (init cnt false) = Ok (ts, s) ->
  used (if second then snd_ s else fst_ s) < cnt ->
  exists s', exec cnt (Add second false x) s = Ok (false, s') /\ fresh (wo s') = fresh (wo s).
Proof.
  intros cnt l ts s second x E U. destruct (run_ok cnt l _ _ (init_si cnt)) as (ts' & s' & R & _ & V & _). rewrite E in R. injection R as <- <-.
  destruct (exec_ok cnt (Add second false x) s _ V) as (t & s' & X & _). cbn [exec] in *. unfold on, add, addExtra in *.
  assert (S : cnt <= size (blk (if second then snd_ s else fst_ s))) by (destruct V as [A B _]; destruct second; [apply (a_size _ _ _ _ B)|apply (a_size _ _ _ _ A)]).
  set (a := if second then snd_ s else fst_ s) in *. destruct (size (blk a) <? used a + 1) eqn:Q; [apply Nat.ltb_lt in Q; lia|]. cbn [obind] in *.
  destruct (cells (blk a) (wo s)) as [c| | |]; cbn [obind] in *; try discriminate. destruct (setn (used a) [x] c) as [c'| | |]; cbn [obind] in *; try discriminate.
  unfold store in *. destruct (ptr (blk a)); cbn [obind] in *; eexists; (split; [reflexivity|]); destruct second; reflexivity.
Qed.
Example sa_small_ex : exists ts s, run 3 [Add false true 1; Add false true 2]%Z (init 3 false) = Ok (ts, s) /\ used (fst_ s) < 3.
Proof. eexists. eexists. split; [vm_compute; reflexivity|]. cbn. lia. Qed.

(** C364: the same arrays over a runtime allocator: the second growth frees a block of the runtime allocator by operator
    delete *)
Theorem sa_rt_refuted : exists cnt l, run cnt l (init cnt true) = Undef.
Proof. exists 1, [Add false true 1; Add false true 2; Add false true 3]%Z. vm_compute. reflexivity. Qed.
Example sa_rt_refuted_ex : exists r, run 1 [Add false true 1; Add false true 2; Add false true 3]%Z (init 1 false) = Ok r.
Proof. eexists. vm_compute. reflexivity. Qed.

Print Assumptions sa_list.
Print Assumptions sa_noleak.
Print Assumptions sa_small.
Print Assumptions sa_rt_refuted.
