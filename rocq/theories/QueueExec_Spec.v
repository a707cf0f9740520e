(** The serving threads of a queue of actions, independent of the code. *)
From Coq Require Import List Permutation Sorted.
Import ListNotations.

(** Actions are numbered in the order of the calls of execute, 0 to n-1.  Every action is either
    started, or waits, or was refused (the executor was stopped); it is so exactly once; and the
    actions are started in the order of the calls. *)
Definition in_order (n : nat) (started waiting refused : list nat) : Prop :=
  Permutation (started ++ waiting ++ refused) (seq 0 n) /\ StronglySorted lt (started ++ waiting).
