(** What a user expects of asynchronous procedure calls: independent of the code. *)
From Verif Require Import Common.

(** what can be seen: the call that queues message m has returned (with the advice to
    notify the server or not), message m was run, message m was rejected *)
Inductive event := Queued (m : nat) (notify : bool) | Ran (m : nat) | Rejected (m : nat).

(** the messages whose calls have returned *)
Definition queued (l : list event) : list nat :=
  flat_map (fun e => match e with Queued m _ => [m] | _ => [] end) l.
(** the messages that were run *)
Definition ran (l : list event) : list nat :=
  flat_map (fun e => match e with Ran m => [m] | _ => [] end) l.
