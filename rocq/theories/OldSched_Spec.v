(** Timed messages, independent of the code.  A message has a number (messages are numbered in the order in
    which they were posted) and, if it is an event, the time when it has to be run.  Times are
    mathematical integers here. *)
From Coq Require Import ZArith List.
Import ListNotations.
Open Scope Z_scope.

Record tmsg := mkT { tid : nat; due : option Z }.
(** how long it takes until the message may be run; messages without a time may be run at once *)
Definition delay (now : Z) (m : tmsg) : Z := match due m with Some t => Z.max 0 (t - now) | None => 0 end.
(** [a] goes before [b]: its time is earlier, or the times are equal and it was posted earlier *)
Definition key (m : tmsg) : Z := match due m with Some t => t | None => 0 end.
Definition before (a b : tmsg) : Prop := key a < key b \/ key a = key b /\ (tid a < tid b)%nat.
(** the time to sleep until the first of the messages may be run; [None]: for ever *)
Definition sleep_ok (now : Z) (l : list tmsg) (r : option Z) : Prop :=
  match r with
  | None => l = []
  | Some k => (forall m, In m l -> k <= delay now m) /\ exists m, In m l /\ k = delay now m
  end.
