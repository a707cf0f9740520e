(** What a user expects of the automatic start of a message thread. *)
From Verif Require Import Common.

(** what happens: the next step of call [i] of notify ([ok]: the system can start a
    thread now), or the thread is stopped *)
Inductive event := P (i : nat) (ok : bool) | Stop.
Definition fine (e : event) : bool := match e with P _ true => true | _ => false end.
(** the state of a call as the caller sees it *)
Inductive seen := Waiting | Running | Returned | Threw.
