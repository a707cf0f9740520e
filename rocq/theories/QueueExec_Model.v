(** Model of QueueExecutor, src/lightspeed/base/actions/queueExecutor.{h,cpp}: any number of
    clients and any number of threads inside serve().

    Code under the lock is one step, and so is an operation of the semaphore (treated in
    Semaphore_Model); runningMessages-- at line 108 is outside of the lock, so its read and its
    write are two steps.  Simplified: onIdle is the original one, which waits without limit
    (153-156); Thread::canFinish() is a free choice of the schedule; runningMessages is an
    integer without bounds. *)
From Coq Require Import ZArith Lia.
From Verif Require Import Common.
Import ListNotations.

(** where a thread is in serve() *)
Inductive qpc :=
| Start                 (* 140: before the constructor of Server *)
| Head                  (* 90: before the lock *)
| Run (a : nat)         (* 106: executes the action *)
| Dec                   (* 108: before the read of runningMessages *)
| DecW (v : Z)          (* 108: before the write *)
| Inner                 (* 108-116: before the lock is taken back *)
| Catch                 (* 109: the action has thrown, before the lock is taken back *)
| Wait                  (* 129-131: before semaphore.lock *)
| Asleep                (* 131: waits in semaphore.lock *)
| Leave                 (* 72: destructor of Server, before the lock *)
| Gone.

(** queueExecutor.h:84-96.  [fin] is finishFlag, [None] if it was never written; [gate] says that
    noThreads is open; [waiters] are the threads that wait for the semaphore, oldest first.
    [next] numbers the actions, [started], [ended] and [refused] have what became of them. *)
Record st := mkSt { queue : list nat; counter : nat; waiters : list nat; running : Z; threadsIn : nat;
  gate : bool; fin : option bool; ws : list qpc; next : nat; started : list nat; ended : list nat; refused : list nat }.
Definition setQueue x s := mkSt x (counter s) (waiters s) (running s) (threadsIn s) (gate s) (fin s) (ws s) (next s) (started s) (ended s) (refused s).
Definition setCounter x s := mkSt (queue s) x (waiters s) (running s) (threadsIn s) (gate s) (fin s) (ws s) (next s) (started s) (ended s) (refused s).
Definition setWaiters x s := mkSt (queue s) (counter s) x (running s) (threadsIn s) (gate s) (fin s) (ws s) (next s) (started s) (ended s) (refused s).
Definition setRunning x s := mkSt (queue s) (counter s) (waiters s) x (threadsIn s) (gate s) (fin s) (ws s) (next s) (started s) (ended s) (refused s).
Definition setThreads x s := mkSt (queue s) (counter s) (waiters s) (running s) x (gate s) (fin s) (ws s) (next s) (started s) (ended s) (refused s).
Definition setGate x s := mkSt (queue s) (counter s) (waiters s) (running s) (threadsIn s) x (fin s) (ws s) (next s) (started s) (ended s) (refused s).
Definition setFin x s := mkSt (queue s) (counter s) (waiters s) (running s) (threadsIn s) (gate s) x (ws s) (next s) (started s) (ended s) (refused s).
Definition setWs x s := mkSt (queue s) (counter s) (waiters s) (running s) (threadsIn s) (gate s) (fin s) x (next s) (started s) (ended s) (refused s).
Definition setNext x s := mkSt (queue s) (counter s) (waiters s) (running s) (threadsIn s) (gate s) (fin s) (ws s) x (started s) (ended s) (refused s).
Definition setStarted x s := mkSt (queue s) (counter s) (waiters s) (running s) (threadsIn s) (gate s) (fin s) (ws s) (next s) x (ended s) (refused s).
Definition setEnded x s := mkSt (queue s) (counter s) (waiters s) (running s) (threadsIn s) (gate s) (fin s) (ws s) (next s) (started s) x (refused s).
Definition setRefused x s := mkSt (queue s) (counter s) (waiters s) (running s) (threadsIn s) (gate s) (fin s) (ws s) (next s) (started s) (ended s) x.
Definition setPc (w : nat) (p : qpc) (s : st) : st := setWs (upd (ws s) w p) s.

(** queueExecutor.cpp:39: finishFlag is not initialised, noThreads is closed (mt/gate.h:41) *)
Definition init : st := mkSt [] 1 [] 0 0 false None [] 0 [] [] [].

(** queueExecutor.cpp:17-23; semaphore.h:68-87 *)
Definition wakeThread (s : st) : st :=
  let s := setCounter (pred (counter s)) s in
  match waiters s with
  | w :: l => setPc w Head (setWaiters l s)
  | [] => setCounter (S (counter s)) s
  end.

(** queueExecutor.cpp:25-37 *)
Definition execute (s : st) : outcome st :=
  let a := next s in
  let s := setNext (S a) s in
  match fin s with
  | None => Undef
  | Some true => Ok (setRefused (a :: refused s) s)
  | Some false => Ok (wakeThread (setQueue (queue s ++ [a]) s))
  end.
(** queueExecutor.cpp:158-167 *)
Definition finish (s : st) : st :=
  wakeThread (setFin (Some true) (setQueue [] (setRefused (queue s ++ refused s) s))).
(** queueExecutor.cpp:185-188 *)
Definition reset (s : st) : st := setFin (Some false) s.

(** queueExecutor.cpp:94-104: take the next action, or go to wait *)
Definition next_action (w : nat) (s : st) : st :=
  match queue s with
  | a :: q => setPc w (Run a) (setQueue q (setRunning (running s + 1)%Z (setStarted (started s ++ [a]) s)))
  | [] => setPc w Wait s
  end.

(** what happens at a step: the usual, the action throws, Thread::canFinish() says yes *)
Inductive how := Plain | Throws | CanFinish.

(** queueExecutor.cpp:84-142, one step of thread [w] *)
Definition wstep (w : nat) (h : how) (s : st) : outcome st :=
  match nth_error (ws s) w with
  | None => Ok s
  | Some p =>
    match p with
    | Start => Ok (setPc w Head (setThreads (S (threadsIn s)) (setGate false s)))
    | Head =>
        match fin s with
        | None => Undef
        | Some f => match f, h with
                    | true, _ | _, CanFinish => Ok (setPc w Leave s)
                    | _, _ => Ok (next_action w s)
                    end
        end
    | Run a =>
        let s := setEnded (a :: ended s) s in
        match h with Throws => Ok (setPc w Catch s) | _ => Ok (setPc w Dec s) end
    | Dec => Ok (setPc w (DecW (running s)) s)
    | DecW v => Ok (setPc w Inner (setRunning (v - 1)%Z s))
    | Inner =>
        match fin s with
        | None => Undef
        | Some f => match f, h with
                    | true, _ | _, CanFinish => Ok (setPc w Wait s)
                    | _, _ => Ok (next_action w s)
                    end
        end
    | Catch => Ok (setPc w Leave (setRunning (running s - 1)%Z s))
    | Wait =>
        match counter s with
        | S n => Ok (setPc w Head (setCounter n s))
        | O => Ok (setPc w Asleep (setWaiters (waiters s ++ [w]) s))
        end
    | Asleep => Ok s
    | Leave =>
        let s := setPc w Gone (setThreads (pred (threadsIn s)) s) in
        if threadsIn s =? 0 then Ok (setGate true s) else Ok (wakeThread s)
    | Gone => Ok s
    end
  end.

(** what the schedule chooses: a call of execute, finish or reset, a new thread that calls serve,
    or the thread that makes the next step.  stopAll is finish, then it waits for the gate
    (145-151), and so do join and the destructor (168-178). *)
Inductive ev := Exec | Finish | Reset | Serve | Step (w : nat) (h : how).
Definition step (e : ev) (s : st) : outcome st :=
  match e with
  | Exec => execute s
  | Finish => Ok (finish s)
  | Reset => Ok (reset s)
  | Serve => Ok (setWs (ws s ++ [Start]) s)
  | Step w h => wstep w h s
  end.
Fixpoint run (l : list ev) (s : st) : outcome st :=
  match l with [] => Ok s | e :: l => let! s := step e s in run l s end.
(** queueExecutor.cpp:180-183 *)
Definition isRunning (s : st) : bool := negb (running s =? 0)%Z.
