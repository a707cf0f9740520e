(** Model of one connection of TCPServer, base/framework/TCPServer.cpp: the listener's thread, the threads of the executor,
    any number of threads that call the wake-up object, and stop().

    A step is one atomic operation of one thread; the schedule (list of labels) is arbitrary.  The connection object and its
    context are destroyed when the connection is taken from the list of connections; a use of it by the server's own threads
    afterwards is undefined.  Simplified: callers of wakeUp keep the rule that the object is valid only until the connection
    is removed (steps of such calls are not done on a removed connection); a handler that throws is one that answers
    cmdRemove (TCPServer.cpp:325-327); other connections and the listening sockets are not modelled; the event listener is
    taken as in NetEv_Model (one registration, a subset of the mask asked for, 0 for a timeout). *)
From Verif Require Import Common TcpConn_Spec.
Open Scope N_scope.

(** actions given to the executor, TCPServer.cpp:152-177 *)
Inductive job := JEv (e : N) | JWake.
(** places in workerEx, TCPServer.cpp:284-331: in the handler; before 304; before 309; before 311; before 330 *)
Inductive rpc := RIn | RCas1 | RCas2 (v : N) | RUser | RReuse (c : cmd).
(** places in CompletionWakeUp::wakeUp, TCPServer.cpp:369-392: before 371, 373, 378, 380 *)
Inductive wpc := WSet (r : nat) | WCas1 (r : nat) | WCas2 (r : nat) (v : N) | WExec.
(** places in Connection::wakeUp, TCPServer.cpp:193-227: not called, before 197, after it *)
Inductive lpc := LIdle | LGot (r : N) | LPassed (r : N).
(** places in stop, TCPServer.cpp:70-110 *)
Inductive spc := SIdle | SFlag | SStopped | SRemoved | SDone.
(** TCPServer.h:154-163, 208 *)
Record st := mkS {
  ws : N; rsn : option nat; jobs : list job; runs : list rpc; wak : list wpc;
  armed : option N; lis : lpc; acc : bool; dead : bool; shut : bool; stp : spc }.
(** TCPServer.cpp:140-142; TCPServer.h:116-123: the connection is made, onAccept is called *)
Definition init := mkS 0 None [] [] [] None LIdle true false false SIdle.

Definition withWs s x := mkS x (rsn s) (jobs s) (runs s) (wak s) (armed s) (lis s) (acc s) (dead s) (shut s) (stp s).
Definition withRsn s x := mkS (ws s) x (jobs s) (runs s) (wak s) (armed s) (lis s) (acc s) (dead s) (shut s) (stp s).
Definition withJobs s x := mkS (ws s) (rsn s) x (runs s) (wak s) (armed s) (lis s) (acc s) (dead s) (shut s) (stp s).
Definition withRuns s x := mkS (ws s) (rsn s) (jobs s) x (wak s) (armed s) (lis s) (acc s) (dead s) (shut s) (stp s).
Definition withWak s x := mkS (ws s) (rsn s) (jobs s) (runs s) x (armed s) (lis s) (acc s) (dead s) (shut s) (stp s).
Definition withArmed s x := mkS (ws s) (rsn s) (jobs s) (runs s) (wak s) x (lis s) (acc s) (dead s) (shut s) (stp s).
Definition withLis s x := mkS (ws s) (rsn s) (jobs s) (runs s) (wak s) (armed s) x (acc s) (dead s) (shut s) (stp s).
Definition withAcc s x := mkS (ws s) (rsn s) (jobs s) (runs s) (wak s) (armed s) (lis s) x (dead s) (shut s) (stp s).
Definition withDead s x := mkS (ws s) (rsn s) (jobs s) (runs s) (wak s) (armed s) (lis s) (acc s) x (shut s) (stp s).
Definition withShut s x := mkS (ws s) (rsn s) (jobs s) (runs s) (wak s) (armed s) (lis s) (acc s) (dead s) x (stp s).
Definition withStp s x := mkS (ws s) (rsn s) (jobs s) (runs s) (wak s) (armed s) (lis s) (acc s) (dead s) (shut s) x.
Definition drop {A} (l : list A) (i : nat) : list A := firstn i l ++ skipn (S i) l.

(** TCPServer.cpp:238-242 *)
Definition close (s : st) : outcome (list ev * st) := if dead s then Undef else Ok ([EFree], withDead s true).
(** TCPServer.cpp:248-269 *)
Definition reuse (s : st) (c : cmd) : outcome (list ev * st) :=
  if dead s then Undef else
  match c with
  | CRead => Ok ([], withArmed s (Some 1))
  | CWrite => Ok ([], withArmed s (Some 2))
  | CReadWrite => Ok ([], withArmed s (Some 3))
  | CWake => Ok ([], s)
  | CRemove => close s
  end.
Definition also (e : list ev) (x : outcome (list ev * st)) : outcome (list ev * st) :=
  match x with Ok y => Ok (fst y ++ e, snd y) | o => o end.
(** TCPServer.cpp:144-146 *)
Definition accept (s : st) (c : cmd) : outcome (list ev * st) :=
  if acc s then also [ERet c] (reuse (withAcc s false) c) else Ok ([], s).
(** networkEventListener.cpp:168-186: the registration ends, the connection is called with the events, or 0 *)
Definition fire (s : st) (flags : N) : outcome (list ev * st) :=
  match armed s, lis s with
  | Some m, LIdle => Ok ([], withLis (withArmed s None) (LGot (N.land flags m)))
  | _, _ => Ok ([], s)
  end.
(** TCPServer.cpp:197 *)
Definition check (s : st) : outcome (list ev * st) :=
  match lis s with
  | LGot r => if dead s then Undef else Ok ([], withLis s (if shut s then LIdle else LPassed r))
  | _ => Ok ([], s)
  end.
(** executor->execute, which may throw; then TCPServer.cpp:224-226 *)
Definition execute (s : st) (j : job) (exec : bool) : outcome (list ev * st) :=
  if exec then Ok ([], withJobs s (jobs s ++ [j])) else also [ENoExec] (close s).
(** TCPServer.cpp:198-226, 333-336 *)
Definition dispatch (s : st) (canRead exec : bool) : outcome (list ev * st) :=
  match lis s with
  | LPassed r =>
      if dead s then Undef else
      let s := withLis s LIdle in
      if negb (N.land r 1 =? 0) then
        if canRead then execute s (JEv r) exec
        else also [ECb CbDisc] (close s)
      else if negb (N.land r 2 =? 0) then execute s (JEv 2) exec
      else if r =? 0 then execute s (JEv 0) exec
      else close s
  | _ => Ok ([], s)
  end.
(** TCPServer.cpp:156-159, 170-173, 288-299: a thread takes the action and calls the handler *)
Definition start (s : st) : outcome (list ev * st) :=
  match jobs s with
  | [] => Ok ([], s)
  | j :: q =>
      if dead s then Undef else
      let s := withJobs s q in
      match j with
      | JEv 1 => Ok ([ECb CbData], withRuns s (runs s ++ [RIn]))
      | JEv 2 => Ok ([ECb CbWrite], withRuns s (runs s ++ [RIn]))
      | JEv 0 => Ok ([ECb CbTimeout], withRuns s (runs s ++ [RIn]))
      | JEv _ => Ok ([], withRuns s (runs s ++ [RReuse CRemove]))
      | JWake => Ok ([ECb (CbUser (rsn s))], withRuns s (runs s ++ [RIn]))
      end
  end.
(** the handler returns, TCPServer.cpp:302 *)
Definition ret (s : st) (i : nat) (c : cmd) : outcome (list ev * st) :=
  match nth_error (runs s) i with
  | Some RIn =>
      if dead s then Undef else
      Ok ([ERet c], withRuns s (upd (runs s) i (match c with CWake => RCas1 | _ => RReuse c end)))
  | _ => Ok ([], s)
  end.
(** mt/linux/atomic.h:29-31: the old value, and the state afterwards *)
Definition cas (s : st) (x y : N) : N * st := (ws s, if ws s =? x then withWs s y else s).
(** TCPServer.cpp:302-331 *)
Definition runStep (s : st) (i : nat) : outcome (list ev * st) :=
  match nth_error (runs s) i with
  | Some RCas1 =>
      if dead s then Undef else
      let r := cas s 0 1 in
      if negb (N.land (fst r) 2 =? 0) then Ok ([], withRuns (snd r) (upd (runs s) i (RCas2 (fst r))))
      else Ok ([], withRuns (snd r) (drop (runs s) i))
  | Some (RCas2 v) =>
      if dead s then Undef else
      let r := cas s v 0 in
      if fst r =? v then Ok ([], withRuns (snd r) (upd (runs s) i RUser))
      else Ok ([], withRuns (snd r) (drop (runs s) i))
  | Some RUser => if dead s then Undef else Ok ([ECb (CbUser (rsn s))], withRuns s (upd (runs s) i RIn))
  | Some (RReuse c) => reuse (withRuns s (drop (runs s) i)) c
  | _ => Ok ([], s)
  end.
(** somebody calls wakeUp(r) *)
Definition wcall (s : st) (r : nat) : outcome (list ev * st) :=
  if dead s then Ok ([], s) else Ok ([EWake r], withWak s (wak s ++ [WSet r])).
(** TCPServer.cpp:369-392, 231-234 *)
Definition wakeStep (s : st) (i : nat) : outcome (list ev * st) :=
  if dead s then Ok ([], s) else
  match nth_error (wak s) i with
  | Some (WSet r) => Ok ([], withWak (withRsn s (Some r)) (upd (wak s) i (WCas1 r)))
  | Some (WCas1 r) =>
      let x := cas s 0 2 in
      if negb (N.land (fst x) 1 =? 0) then Ok ([], withWak (snd x) (upd (wak s) i (WCas2 r (fst x))))
      else Ok ([EWoken], withWak (snd x) (drop (wak s) i))
  | Some (WCas2 r v) =>
      let x := cas s v 0 in
      if fst x =? v then Ok ([], withWak (snd x) (upd (wak s) i WExec))
      else Ok ([], withWak (snd x) (upd (wak s) i (WSet r)))
  | Some WExec => Ok ([EWoken], withWak (withJobs s (jobs s ++ [JWake])) (drop (wak s) i))
  | None => Ok ([], s)
  end.
(** TCPServer.cpp:70-110; stopAll waits for the threads (parallelExecutor.cpp:313-325), removal waits for the listener's thread *)
Definition stop (s : st) : outcome (list ev * st) :=
  match stp s with
  | SIdle => if acc s then Ok ([], s) else Ok ([], withStp (withShut s true) SFlag)
  | SFlag => match jobs s, runs s with [], [] => Ok ([], withStp s SStopped) | _, _ => Ok ([], s) end
  | SStopped => match lis s with LIdle => Ok ([], withStp (withArmed s None) SRemoved) | _ => Ok ([], s) end
  | SRemoved => if dead s then Ok ([], withStp s SDone) else Ok ([EFree], withStp (withDead s true) SDone)
  | SDone => Ok ([], s)
  end.

Inductive lab := LAccept (c : cmd) | LFire (flags : N) | LCheck | LDispatch (canRead exec : bool) | LStart | LRet (i : nat) (c : cmd)
| LRun (i : nat) | LWake (r : nat) | LWaker (i : nat) | LStop.
Definition step (s : st) (l : lab) : outcome (list ev * st) :=
  match l with
  | LAccept c => accept s c
  | LFire flags => fire s flags
  | LCheck => check s
  | LDispatch a b => dispatch s a b
  | LStart => start s
  | LRet i c => ret s i c
  | LRun i => runStep s i
  | LWake r => wcall s r
  | LWaker i => wakeStep s i
  | LStop => stop s
  end.
Fixpoint run (l : list lab) (h : list ev) (s : st) : outcome (list ev * st) :=
  match l with
  | [] => Ok (h, s)
  | a :: r => match step s a with Ok x => run r (fst x ++ h) (snd x) | _ => Undef end
  end.
(** nothing in the server holds the connection: it waits for a wake-up *)
Definition asleep (s : st) : Prop :=
  jobs s = [] /\ runs s = [] /\ ~ In WExec (wak s) /\ armed s = None /\ lis s = LIdle /\ acc s = false /\ dead s = false.
(** schedules in which the server is not stopped and onAccept does not answer cmdWaitUserWakeup *)
Definition running (l : lab) : Prop := match l with LStop => False | _ => True end.
Definition plain (l : lab) : Prop := match l with LStop | LAccept CWake => False | _ => True end.
(** schedules in which no event is input and output at once *)
Definition single (l : lab) : Prop := match l with LFire f => N.land f 3 <> 3 | _ => True end.
