(** What a listener of network events should do *)
From Verif Require Import Common.
Open Scope N_scope.

(** what a user sees: an observer asks for events of a socket (mask 0: it is removed), with a timeout; an observer is notified
    (reason 0: the timeout) *)
Inductive ev := EReq (fd obs : nat) (mask : N) (tm : option Z) | ENote (fd obs : nat) (reason : N).
(** the request of an observer for a socket that is open after the events (the newest first) *)
Fixpoint wants (h : list ev) (fd obs : nat) : option (N * option Z) :=
  match h with
  | [] => None
  | EReq f o m tm :: r => if Nat.eqb f fd && Nat.eqb o obs then (if m =? 0 then None else Some (m, tm)) else wants r fd obs
  | ENote f o _ :: r => if Nat.eqb f fd && Nat.eqb o obs then None else wants r fd obs
  end.
Definition passed (now : Z) (tm : option Z) : Prop := exists t, tm = Some t /\ (t < now)%Z.
(** an observer must be notified of [flags] at time [now] *)
Definition due (h : list ev) (fd : nat) (flags : N) (now : Z) (obs : nat) (reason : N) : Prop :=
  exists m tm, wants h fd obs = Some (m, tm) /\ (N.land flags m <> 0 /\ reason = N.land flags m \/ N.land flags m = 0 /\ passed now tm /\ reason = 0).
(** every notification belongs to an open request *)
Fixpoint notes_open (h : list ev) : Prop :=
  match h with
  | [] => True
  | ENote f o _ :: r => wants r f o <> None /\ notes_open r
  | _ :: r => notes_open r
  end.
(** the number of notifications of an observer *)
Fixpoint notes (h : list ev) (o : nat) : nat :=
  match h with
  | [] => O
  | ENote _ o' _ :: r => ((if Nat.eqb o o' then 1 else 0) + notes r o)%nat
  | _ :: r => notes r o
  end.
