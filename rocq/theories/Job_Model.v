(** Model of Job, /repo/src/lightspeed/base/actions/job.cpp.

    Any number of threads make calls; a step is one access of the variable state.  A finished call is added to [calls] with the
    value its setState gave.  The function of the job, the notified object and the reason are not modelled here. *)
From Verif Require Import Common Job_Spec.

Definition eqS (a b : state) : bool :=
  match a, b with NotRunning, NotRunning | Running, Running | RunEvent, RunEvent | Sleeping, Sleeping | Ready, Ready => true | _, _ => false end.
(** job.cpp:53, 63, 73, 84: arguments of setState, one or two pairs *)
Definition pairs (o : op) : list (state * state) :=
  match o with
  | Start => [(NotRunning, Ready)]
  | Take => [(Ready, Running)]
  | Sleep => [(Running, Sleeping); (RunEvent, Ready)]
  | Wake => [(Sleeping, Ready); (Running, RunEvent)]
  | Stop => []
  end.
Inductive pc :=
| Idle
| Begin (o : op)                      (** first access *)
| Cas (o : op) (a new : state).       (** job.cpp:111-112: compare and exchange of the value read before *)
Record world := mkW { st : state; thr : list pc; calls : list (op * state) }.
Definition setT (w : world) (i : nat) (p : pc) : world := mkW (st w) (upd (thr w) i p) (calls w).
Definition finish (w : world) (i : nat) (s : state) (o : op) (r : state) : world := mkW s (upd (thr w) i Idle) (calls w ++ [(o, r)]).
Inductive event := Call (i : nat) (o : op) | Step (i : nat).
(** an event that cannot happen changes nothing *)
Definition step (w : world) (e : event) : world :=
  match e with
  | Call i o => match nth_error (thr w) i with Some Idle => setT w i (Begin o) | _ => w end
  | Step i =>
      match nth_error (thr w) i with
      | Some (Begin o) =>
          match pairs o with
          | [] => finish w i NotRunning o (st w)                                             (* job.cpp:68-70 *)
          | [(old, new)] => finish w i (if eqS (st w) old then new else st w) o (st w)       (* job.cpp:103-105 *)
          | (old1, new1) :: (old2, new2) :: _ =>                                             (* job.cpp:110-113 *)
              let a := st w in
              if eqS a old1 then setT w i (Cas o a new1)
              else if eqS a old2 then setT w i (Cas o a new2)
              else finish w i (st w) o a
          end
      | Some (Cas o a new) => if eqS (st w) a then finish w i new o a else setT w i (Begin o)  (* job.cpp:111-114 *)
      | _ => w
      end
  end.
Definition initial (n : nat) : world := mkW NotRunning (repeat Idle n) [].
Definition run (n : nat) (l : list event) : world := fold_left step l (initial n).

(** job.cpp:72-80, in one thread; [act] is the effect of the function of the job on the state.  The result is the state and the
    number of calls of the function. *)
Fixpoint runLoop (fuel : nat) (act : state -> state) (s : state) (n : nat) : outcome (state * nat) :=
  let v := s in
  let s := if eqS s Ready then Running else s in
  if negb (eqS v Ready) then
    match fuel with O => NoFuel | S f => runLoop f act (act s) (n + 1) end
  else Ok (s, n).
Definition runJob (fuel : nat) (act : state -> state) (s : state) : outcome (state * nat) := runLoop fuel act s 0.
(** job.cpp:52-60 *)
Definition execute (fuel : nat) (act : state -> state) (s : state) : outcome (state * nat) :=
  if eqS s NotRunning then runJob fuel act Ready else Throw.
(** job.cpp:82-90, a job that is not bound *)
Definition wakeUp (fuel : nat) (act : state -> state) (s : state) : outcome (state * nat) :=
  match s with
  | Sleeping => runJob fuel act Ready
  | Running => Ok (RunEvent, 0)
  | _ => Ok (s, 0)
  end.
