(** Model of Dispatcher, src/lightspeed/mt/dispatcher.{h,cpp}, and Scheduler,
    src/lightspeed/mt/scheduler.{h,cpp}.

    Sections of code under the lock are one step.  An action is a number; it runs after the lock is
    released, what it does to the dispatcher shows as later steps.  AllocPointer<AbstractAction> is
    [Some a], or [None] once detached.  An action that throws is not modelled (the loop ends as
    after a quit and the exception goes on). *)
From Coq Require Import ZArith.
From Verif Require Import Common Disp_Spec Heap_Model.

(** dispatcher.h:65-71: queue, needstop, running (the gate is closed) and the log of events *)
Record disp := mkDisp { dqueue : list (option nat); needstop : bool; running : bool; dlog : list dev }.
(** dispatcher.cpp:9-12: needstop is not initialised, run() sets it before it is read *)
Definition disp_new : disp := mkDisp [] false false [].

(** dispatcher.cpp:84-87: currentThread is set while the gate is closed *)
Definition onNewMessage (s : disp) : disp :=
  if running s then mkDisp (dqueue s) (needstop s) (running s) (dlog s ++ [Woken]) else s.

(** dispatcher.cpp:19-25 and containers/queue.h:23-32 *)
Definition dispatch (s : disp) (a : nat) : disp :=
  let firstMsg := match dqueue s with [] => true | _ => false end in
  let s := mkDisp (dqueue s ++ [Some a]) (needstop s) (running s) (dlog s) in
  if firstMsg then onNewMessage s else s.

(** dispatcher.cpp:102-107: top() and detach(); there is no pop() *)
Definition getNextAction (q : list (option nat)) : option nat * list (option nat) :=
  match q with
  | [] => (None, [])
  | aa :: q => (aa, None :: q)
  end.

(** dispatcher.cpp:109-116; the loop ends at the latest when the top is detached, see
    [rejectQueue_fuel] *)
Fixpoint rejectQueue (fuel : nat) (q : list (option nat)) : outcome (list nat * list (option nat)) :=
  match getNextAction q with
  | (None, q) => Ok ([], q)
  | (Some a, q) =>
      match fuel with
      | O => NoFuel
      | S f => let! (l, q) := rejectQueue f q in Ok (a :: l, q)
      end
  end.
(** dispatcher.cpp:94-100 *)
Definition finishRun (s : disp) : outcome disp :=
  let! (l, q) := rejectQueue (length (dqueue s)) (dqueue s) in
  Ok (mkDisp q (needstop s) false (dlog s ++ map Rejected l ++ [Left])).

(** dispatcher.cpp:44-48: a second thread is refused *)
Definition enter (s : disp) : disp :=
  if running s then s else mkDisp (dqueue s) false true (dlog s).
(** dispatcher.cpp:51-65, one turn of the loop *)
Definition turn (s : disp) : outcome disp :=
  if negb (running s) then Ok s
  else if needstop s then finishRun s
  else let '(aa, q) := getNextAction (dqueue s) in
       match aa with
       | None => Ok (mkDisp q (needstop s) (running s) (dlog s ++ [Slept]))
       | Some a => Ok (mkDisp q (needstop s) (running s) (dlog s ++ [Ran a]))
       end.
(** dispatcher.cpp:73-77 *)
Definition quit (s : disp) : disp := onNewMessage (mkDisp (dqueue s) true (running s) (dlog s)).

Definition dstep (s : disp) (o : dop) : outcome disp :=
  match o with
  | DDispatch a => Ok (dispatch s a)
  | DRun => Ok (enter s)
  | DTurn => turn s
  | DQuit => Ok (quit s)
  end.
Fixpoint drun (s : disp) (ops : list dop) : outcome disp :=
  match ops with
  | [] => Ok s
  | o :: ops => let! s := dstep s o in drun s ops
  end.

(** ** Scheduler *)
(** scheduler.cpp:43-46 *)
Definition cmpQueue (a b : item) : bool := (fst b <? fst a)%Z.
(** scheduler.cpp:10 *)
Definition sched_new : heap item := mkHeap [] 0.
(** scheduler.cpp:17-20; an infinite time is refused before *)
Definition schedule (h : heap item) (i : item) : outcome (heap item) :=
  let! (_, h) := push cmpQueue (mkHeap (arr h ++ [i]) (hsize h)) in Ok h.

(** what an idle turn gives: the time to sleep until ([None]: no limit), or the promise copied at
    scheduler.cpp:31 and the promise that is resolved at scheduler.cpp:35 *)
Inductive idle := Sleep (t : option Z) | Fire (p : nat) (resolved : outcome nat).
(** scheduler.cpp:24-41.  [itm] stays a reference to the first element of the array, which is read
    again at scheduler.cpp:35 *)
Definition onIdle (h : heap item) (now : Z) : outcome (heap item * idle) :=
  if hsize h =? 0 then Ok (h, Sleep None)
  else
    let! itm := get (arr h) 0 in
    if (fst itm <? now)%Z then
      let p := snd itm in
      let! (_, h) := pop cmpQueue h in
      let h := mkHeap (trunc (arr h) 1) (hsize h) in
      Ok (h, Fire p (let! itm := get (arr h) 0 in Ok (snd itm)))
    else Ok (h, Sleep (Some (fst itm))).

Definition sstep (h : heap item) (o : sop) : outcome (heap item * option idle) :=
  match o with
  | SSchedule i => let! h := schedule h i in Ok (h, None)
  | SIdle now => let! (h, r) := onIdle h now in Ok (h, Some r)
  end.
Fixpoint srun (h : heap item) (ops : list sop) : outcome (heap item * list (option idle)) :=
  match ops with
  | [] => Ok (h, [])
  | o :: ops => let! (h, r) := sstep h o in let! (h, l) := srun h ops in Ok (h, r :: l)
  end.

(** the use of the lock in an idle turn of a Scheduler: dispatcher.cpp:53 releases it, onIdle runs
    (dispatcher.cpp:55), scheduler.cpp:34 releases it again around the resolution, and the two
    SyncReleased objects take it back *)
Definition idleLocks (h : heap item) (now : Z) : list lev :=
  [LUnlock] ++
  match onIdle h now with
  | Ok (_, Fire _ _) => [LQueue; LUnlock; LResolve; LLock]
  | _ => [LQueue]
  end ++ [LLock].
