(** Specification of weak references: what the log of the visible events of one
    control block must look like. *)
From Verif Require Import Common.

Inductive wev :=
| WLock (h : nat) (r : option nat)   (* lock number h was taken and gave the pointer r *)
| WUnlock (h : nat)                  (* lock number h was given back *)
| WSetBegin | WSetEnd.               (* the target calls setNull; setNull returns *)

(** when setNull returns every non-null pointer that was handed out has been
    given back, and later locks give null *)
Definition withdrawn (log : list wev) : Prop :=
  forall a b, log = a ++ WSetEnd :: b ->
    (forall h p, In (WLock h (Some p)) a -> In (WUnlock h) a) /\
    (forall h r, In (WLock h r) b -> r = None).

(** until setNull begins, locks give the target *)
Definition available (target : nat) (log : list wev) : Prop :=
  forall a b, log = a ++ b -> ~ In WSetBegin a -> forall h r, In (WLock h r) a -> r = Some target.

(** lock number h is taken and not given back *)
Definition stillLocked (log : list wev) (h : nat) : Prop :=
  (exists r, In (WLock h r) log) /\ ~ In (WUnlock h) log.
