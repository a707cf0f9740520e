(** A dispatcher of actions and a scheduler of promises, independent of the code. *)
From Coq Require Import ZArith List Permutation.
Import ListNotations.

(** what a client and the serving thread do: an action is handed over, the thread enters the
    dispatcher, the thread makes one turn of its loop, somebody asks it to stop *)
Inductive dop := DDispatch (a : nat) | DRun | DTurn | DQuit.
(** what can be seen: an action ran, its promise was rejected, the thread went to sleep, the
    thread was woken up, the thread left the dispatcher *)
Inductive dev := Ran (a : nat) | Rejected (a : nat) | Slept | Woken | Left.

Definition dispatched (ops : list dop) : list nat :=
  flat_map (fun o => match o with DDispatch a => [a] | _ => [] end) ops.
(** the actions that were settled: ran or rejected *)
Definition settled (l : list dev) : list nat :=
  flat_map (fun e => match e with Ran a | Rejected a => [a] | _ => [] end) l.

(** the scheduler: an item is the time and the promise to resolve at that time *)
Definition item : Type := Z * nat.
Inductive sop := SSchedule (i : item) | SIdle (now : Z).
Definition earliest (i : item) (q : list item) : Prop := In i q /\ forall j, In j q -> (fst i <= fst j)%Z.
(** what one idle turn should do with the waiting items: nothing to do; sleep until the earliest
    time; take out the earliest item whose time is over *)
Inductive sobs := ONone | OSleep (t : option Z) | OTaken (p : nat).
Inductive sched_spec : list item -> sop -> list item -> sobs -> Prop :=
| ss_schedule q i : sched_spec q (SSchedule i) (q ++ [i]) ONone
| ss_empty now : sched_spec [] (SIdle now) [] (OSleep None)
| ss_sleep q now i : earliest i q -> (now <= fst i)%Z -> sched_spec q (SIdle now) q (OSleep (Some (fst i)))
| ss_take q q' now i : earliest i q -> (fst i < now)%Z -> Permutation q (i :: q') ->
    sched_spec q (SIdle now) q' (OTaken (snd i)).
Inductive sched_runs : list sop -> list item -> list sobs -> Prop :=
| sr_nil : sched_runs [] [] []
| sr_step ops q l o q0 q' e : sched_runs ops q l -> Permutation q q0 -> sched_spec q0 o q' e ->
    sched_runs (ops ++ [o]) q' (l ++ [e]).

(** the use of a lock by one thread *)
Inductive lev := LLock | LUnlock | LQueue | LResolve.
(** the lock is taken when free, released when held, and the queue is used with the lock held *)
Fixpoint lock_ok (held : bool) (l : list lev) : bool :=
  match l with
  | [] => true
  | LLock :: r => negb held && lock_ok true r
  | LUnlock :: r => held && lock_ok false r
  | LQueue :: r => held && lock_ok held r
  | LResolve :: r => lock_ok held r
  end%bool.
