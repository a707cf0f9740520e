(** What a set of watched descriptors should do *)
From Verif Require Import Common.
Open Scope Z_scope.

(** operations that change the registration: a descriptor is set with user data, a descriptor is removed *)
Inductive fdop := DSet (fd data : Z) | DUnset (fd : Z).
(** the data of a descriptor after the operations (the newest first) *)
Fixpoint registered (h : list fdop) (fd : Z) : option Z :=
  match h with
  | [] => None
  | DSet g d :: r => if g =? fd then Some d else registered r fd
  | DUnset g :: r => if g =? fd then None else registered r fd
  end.
(** the time that a wait may take: none of the given times is exceeded and the wait has no end only when nothing limits it *)
Definition waits_right (rems : list (option Z)) (tm : option Z) (t : Z) : Prop :=
  (t = -1 /\ tm = None /\ forall c, ~ In (Some c) rems)
  \/ (0 <= t /\ (forall c, In (Some c) rems -> t <= c) /\ (forall c, tm = Some c -> t <= c) /\ (In (Some t) rems \/ tm = Some t)).
(** masks of the library: input 1, output 2, exception 4; of poll: input 1 (bit 0), urgent data 2 (bit 1), output 4 (bit 2), error 8 (bit 3),
    hang-up 16 (bit 4), not open 32 (bit 5): a hang-up is reported as input, a descriptor that is not open as everything *)
Definition on (b : bool) (v : Z) : Z := if b then v else 0.
Definition report_mask (e : Z) : Z :=
  on (Z.testbit e 0 || Z.testbit e 4 || Z.testbit e 5) 1 + on (Z.testbit e 2 || Z.testbit e 5) 2 + on (Z.testbit e 1 || Z.testbit e 5) 4.
Definition watch_mask (m : Z) : Z := on (Z.testbit m 0) 1 + on (Z.testbit m 1) 4 + on (Z.testbit m 2) 2.
