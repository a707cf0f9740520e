(** Calls of a pair of locks and what they may give *)
From Verif Require Import Common.

(** lock(), tryLock(), lock(timeout); each call that gets the locks is followed by unlock() *)
Inductive call := Lock | TryLock | LockFor.
Inductive result := Got | NotGot | Thrown.
(** what happens in a step of a thread: the operation of a lock goes well, it throws an exception, or its timeout expires *)
Inductive event := Go | Raise | Expire.
(** which thread owns which lock *)
Definition owns (owner : list (option nat)) (t l : nat) : Prop := nth_error owner l = Some (Some t).
Definition may_give (c : call) (r : result) : Prop := match c, r with Lock, NotGot => False | _, _ => True end.
(** threads with their calls and pairs of different locks below [n] *)
Definition wf (n : nat) (cs : list (nat * nat * list call)) : Prop := forall a b c, In (a, b, c) cs -> a < n /\ b < n /\ a <> b.
