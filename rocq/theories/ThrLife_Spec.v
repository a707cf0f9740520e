(** What a user does with a Thread object: independent of the code. *)
From Verif Require Import Common.

(** the calls of a client: start a function, wait for its end, destroy the object *)
Inductive call := Start | Join | Destroy.

(** [n] times start and join *)
Fixpoint rounds (n : nat) : list call := match n with O => [] | S k => Start :: Join :: rounds k end.

(** what can be seen from outside: the function of the w-th successful start begins and
    ends; client c is told that the thread is busy, that no thread could be
    made; a call of join has returned; a call of start has returned *)
Inductive event := Begin (w : nat) | End_ (w : nat) | Busy (c : nat) | NoThread (c : nat) | Joined (c : nat) | Started (c : nat).

(** the calls of one client that starts and joins in turn, seen in time: the k-th
    function begins after it was started, ends before the k-th join returns, and
    nothing else happens *)
Inductive orderly : nat -> list event -> Prop :=
| o_nil : orderly 0 []
| o_round k l : orderly k l -> orderly (S k) (l ++ [Started 0; Begin k; End_ k; Joined 0])
| o_round' k l : orderly k l -> orderly (S k) (l ++ [Begin k; Started 0; End_ k; Joined 0])
| o_round'' k l : orderly k l -> orderly (S k) (l ++ [Begin k; End_ k; Started 0; Joined 0]).

(** the number of functions that have begun and not ended *)
Definition running (l : list event) : nat :=
  length (filter (fun e => match e with Begin _ => true | _ => false end) l)
  - length (filter (fun e => match e with End_ _ => true | _ => false end) l).
