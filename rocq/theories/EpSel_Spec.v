(** What a one-shot set of watched sockets should do *)
From Verif Require Import Common.
Open Scope Z_scope.

(** what a user sees: a socket is charged with user data and a timeout, it is removed, an event or a timeout is delivered for
    it (flags 0: the timeout), everything is cancelled *)
Inductive ev := ESet (fd : nat) (data : Z) (tm : option Z) | EUnset (fd : nat) | EDeliver (fd : nat) (data flags : Z) | ECancel.
(** the data and the timeout of a socket that is charged after the events (the newest first) *)
Fixpoint charged (h : list ev) (fd : nat) : option (Z * option Z) :=
  match h with
  | [] => None
  | ESet g d tm :: r => if Nat.eqb g fd then Some (d, tm) else charged r fd
  | EUnset g :: r => if Nat.eqb g fd then None else charged r fd
  | EDeliver g _ _ :: r => if Nat.eqb g fd then None else charged r fd
  | ECancel :: _ => None
  end.
(** only charged sockets are delivered, with their data *)
Fixpoint delivers_charged (h : list ev) : Prop :=
  match h with
  | [] => True
  | EDeliver fd d _ :: r => (exists tm, charged r fd = Some (d, tm)) /\ delivers_charged r
  | _ :: r => delivers_charged r
  end.
(** after each delivery, the next thing is that the same socket is charged again or removed *)
Definition settles (e : ev) (r : list ev) : Prop :=
  match r with
  | EDeliver g _ _ :: _ => match e with ESet f _ _ => f = g | EUnset f => f = g | _ => False end
  | _ => True
  end.
Fixpoint settled (h : list ev) : Prop := match h with [] => True | e :: r => settles e r /\ settled r end.
