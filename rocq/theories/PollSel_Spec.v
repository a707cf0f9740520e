(** What a one-shot set of sockets over poll(2) should watch *)
From Verif Require Import Common.
Open Scope N_scope.

(** waiting flags of INetworkResource: input 1, output 2, exception 4; events of poll(2): POLLIN 1, POLLPRI 2, POLLOUT 4 *)
Definition watched (m : N) : N :=
  N.lor (if N.testbit m 0 then 1 else 0) (N.lor (if N.testbit m 1 then 4 else 0) (if N.testbit m 2 then 2 else 0)).
(** what a user sees: a socket is charged (mask 0: removed), delivered with its data, everything is cancelled *)
Inductive ev := ESet (fd : nat) (mask : N) (data : Z) | EDeliver (fd : nat) (data : Z) | ECancel.
Fixpoint charged (h : list ev) (fd : nat) : option (N * Z) :=
  match h with
  | [] => None
  | ESet g m d :: r => if Nat.eqb g fd then (if m =? 0 then None else Some (m, d)) else charged r fd
  | EDeliver g _ :: r => if Nat.eqb g fd then None else charged r fd
  | ECancel :: _ => None
  end.
Fixpoint delivers_charged (h : list ev) : Prop :=
  match h with
  | [] => True
  | EDeliver fd d :: r => (exists m, charged r fd = Some (m, d)) /\ delivers_charged r
  | _ :: r => delivers_charged r
  end.
Fixpoint cancelled (h : list ev) : bool := match h with [] => false | ECancel :: _ => true | _ :: r => cancelled r end.
