(** What INetworkWaitingObject should do (base/streams/netio_ifc.h:117-211): a set of network resources, each with one socket; an event of
    a resource is given once and takes the resource out of the set.  Nothing here mentions the model. *)
From Verif Require Import Common FdSelect_Spec.
Open Scope Z_scope.

(** what happens, the newest first: a resource is added with a mask and a time, removed, poll() reports for each socket at a time,
    getNext gives an event (resource, mask), getNext waits *)
Inductive hev := HAdd (r m : Z) (t : option Z) | HRem (r : Z) | HPoll (rep : Z -> Z) (now : Z) | HGot (r m : Z) | HWait.
Definition late (now : Z) (t : option Z) : bool := match t with Some t => t <? now | None => false end.
(** a registered resource: the events watched (none after its time or an error), the last report for it, its time *)
Fixpoint entry (sock : Z -> Z) (h : list hev) (r : Z) : option (Z * Z * option Z) :=
  match h with
  | [] => None
  | HAdd q m t :: h => if q =? r then Some (watch_mask m, 0, t) else entry sock h r
  | HRem q :: h => if q =? r then None else entry sock h r
  | HGot q _ :: h => if q =? r then None else entry sock h r
  | HWait :: h => entry sock h r
  | HPoll rep now :: h =>
      match entry sock h r with
      | Some (w, _, t) => Some (if late now t || Z.testbit (rep (sock r)) 3 then 0 else w, rep (sock r), t)
      | None => None
      end
  end.
(** the answer of getNext that is right after [h] *)
Definition right (sock : Z -> Z) (h : list hev) (x : hev) : Prop :=
  match x with
  | HGot r m => r <> 0 /\ exists w v t, entry sock h r = Some (w, v, t) /\ m = report_mask v /\ (v <> 0 \/ w = 0)
  | HWait => forall r w v t, r <> 0 -> entry sock h r = Some (w, v, t) -> v = 0
  | _ => False
  end.
