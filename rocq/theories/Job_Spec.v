(** What calls of a job do, each of them at once. *)
From Verif Require Import Common.

(** job.h:132-143 *)
Inductive state := NotRunning | Running | RunEvent | Sleeping | Ready.
(** start a job that is not running; take a ready job to run it; put the running job to sleep; wake the job up; stop it *)
Inductive op := Start | Take | Sleep | Wake | Stop.
(** the state after a call; a call in any other state changes nothing *)
Definition next (o : op) (s : state) : state :=
  match o, s with
  | Start, NotRunning => Ready
  | Take, Ready => Running
  | Sleep, Running => Sleeping
  | Sleep, RunEvent => Ready      (* an event came before: do not sleep *)
  | Wake, Sleeping => Ready
  | Wake, Running => RunEvent     (* remember the event *)
  | Stop, _ => NotRunning
  | _, _ => s
  end.
(** the calls [l], with the states they found, lead from [s] to [s'] *)
Fixpoint chain (s : state) (l : list (op * state)) (s' : state) : Prop :=
  match l with [] => s = s' | (o, r) :: l => r = s /\ chain (next o s) l s' end.
(** the call made the job ready *)
Definition readies (x : op * state) : Prop := x = (Start, NotRunning) \/ x = (Wake, Sleeping) \/ x = (Sleep, RunEvent).
