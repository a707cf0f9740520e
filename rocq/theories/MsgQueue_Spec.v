(** Histories of a queue of messages, independent of the code.  A history lists what happened, the
    newest event first. *)
From Coq Require Import List.
Import ListNotations.

(** [Push i pr]: message [i] got into the queue ([pr]: as a priority message).  [Take i]: the worker
    chose [i] as the next message.  [Ran i]: [i] was run.  [Flushed i]: [i] was taken and rejected
    by a flush.  [Cancelled i]: [i] was removed from the queue and rejected.  [Done i]: the message was
    told that it is finished; its owner may destroy it. *)
Inductive ev := Push (i : nat) (pr : bool) | Take (i : nat) | Ran (i : nat) | Flushed (i : nat) | Cancelled (i : nat) | Done (i : nat).

Definition ev_dec (a b : ev) : {a = b} + {a <> b}.
Proof. decide equality; try apply PeanoNat.Nat.eq_dec; apply Bool.bool_dec. Defined.
(** how many times an event happened *)
Definition times (e : ev) (h : list ev) : nat := count_occ ev_dec h e.

(** the message got what it was posted for, or was rejected *)
Definition ended (i : nat) (h : list ev) : Prop := In (Ran i) h \/ In (Flushed i) h \/ In (Cancelled i) h.
(** the message is not in the queue any more *)
Definition gone (i : nat) (h : list ev) : Prop := In (Take i) h \/ In (Cancelled i) h.
(** [a] got into the queue earlier than [b] *)
Definition earlier (a : nat) (p : bool) (b : nat) (q : bool) (h : list ev) : Prop :=
  exists x y z, h = x ++ Push b q :: y ++ Push a p :: z.

(** Every message is posted at most once (see the model), gets at most one end, and only after it was
    posted; it is told at most once that it is finished, and only after its end. *)
Definition once (h : list ev) : Prop := forall i,
  times (Push i true) h + times (Push i false) h <= 1 /\
  times (Ran i) h + times (Flushed i) h + times (Cancelled i) h <= times (Push i true) h + times (Push i false) h /\
  times (Done i) h <= times (Ran i) h + times (Flushed i) h + times (Cancelled i) h.

(** Ordinary messages are handled in the order of posting: when one is run or flushed, all ordinary
    messages posted earlier have ended. *)
Fixpoint fifo (h : list ev) : Prop :=
  match h with
  | [] => True
  | e :: t => fifo t /\ match e with
      | Ran b | Flushed b => forall a, earlier a false b false t -> ended a t
      | _ => True end
  end.
(** Priority messages go first, the newest of them before the others: when the worker chooses an ordinary
    message, no priority message is in the queue; when it chooses a priority message, no priority
    message posted later is in the queue. *)
Fixpoint lifo_prio (h : list ev) : Prop :=
  match h with
  | [] => True
  | e :: t => lifo_prio t /\ match e with
      | Take b => (In (Push b false) t -> forall a, In (Push a true) t -> gone a t) /\
                  (forall a, earlier b true a true t -> gone a t)
      | _ => True end
  end.
(** When [f], which was run and not rejected, is told that it is finished, then all messages posted
    before it have ended. *)
Definition clears (f : nat) (h : list ev) : Prop :=
  forall x y, h = x ++ Done f :: y -> In (Ran f) y -> forall a p q, earlier a p f q y -> ended a y.
Definition clears_one (f a : nat) (h : list ev) : Prop :=
  forall x y p q, h = x ++ Done f :: y -> In (Ran f) y -> earlier a p f q y -> ended a y.
(** The same without the exception for rejected messages. *)
Definition clears_always (f : nat) (h : list ev) : Prop :=
  forall x y, h = x ++ Done f :: y -> forall a p q, earlier a p f q y -> ended a y.
Definition clears_one_always (f a : nat) (h : list ev) : Prop :=
  forall x y p q, h = x ++ Done f :: y -> earlier a p f q y -> ended a y.
