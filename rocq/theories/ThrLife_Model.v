(** Model of the life of a thread: /repo/src/lightspeed/mt/linux/thread.cpp: Thread::start,
    join, isRunning, ~Thread, ThreadContext::bootstrap, finishThread,
    handleException; mt/thread.h:174 (stop).  One Thread object, several clients,
    each step is one access to the object.  Simplified: no hooks (see
    Hook_Model), the clients are the main thread or threads of the library (299: they
    have a context of their own), no thread variables (Tls_Model), the Gate is one bit (Gate_Model). *)
From Verif Require Import Common ThrLife_Spec.

(** where a client is: between two calls; in start before 339, before 362, waiting in 368;
    in join before 384, the flag tells whether it was called by the destructor (306) *)
Inductive cpc := Idle | SClose | SCreate | SWait | JWrite (d : bool).
(** where the new thread is: before 201, before 213, before 215, before 219, in its function,
    in finishThread before 117 and before 118, with [n] more calls of
    finishThread to come, ended *)
Inductive wpc := WBoot | WClose | WWake | WFn | WRun | WClear (n : nat) | WOpen (n : nat) | WDone.

(** thread.cpp:63, 333: threadContext points to the one made in start, or to the one of a thread *)
Inductive ctxt := Fake | Real (w : nat).

Record client := mkC { pc : cpc; prog : list call; woken : bool }.
Record worker := mkW { wp : wpc; starter : nat }.
Record st := mkSt {
  ctx : option ctxt;          (* Thread::threadContext *)
  open : bool;                (* Thread::joinObject *)
  alive : bool;               (* the object exists *)
  bad : bool;                 (* it was accessed when it did not exist *)
  clients : list client;
  workers : list worker;
  log : list event
}.

(** thread.cpp:279 *)
Definition init (ps : list (list call)) : st :=
  mkSt None true true false (map (fun p => mkC Idle p false) ps) [] [].

Definition touch (s : st) : st := mkSt (ctx s) (open s) (alive s) (bad s || negb (alive s)) (clients s) (workers s) (log s).
Definition setCtx (s : st) (c : option ctxt) : st := let s := touch s in mkSt c (open s) (alive s) (bad s) (clients s) (workers s) (log s).
Definition setOpen (s : st) (o : bool) : st := let s := touch s in mkSt (ctx s) o (alive s) (bad s) (clients s) (workers s) (log s).
Definition kill (s : st) : st := mkSt (ctx s) (open s) false (bad s) (clients s) (workers s) (log s).
Definition setC (s : st) (c : nat) (x : client) : st := mkSt (ctx s) (open s) (alive s) (bad s) (upd (clients s) c x) (workers s) (log s).
Definition setW (s : st) (w : nat) (x : worker) : st := mkSt (ctx s) (open s) (alive s) (bad s) (clients s) (upd (workers s) w x) (log s).
Definition addW (s : st) (x : worker) : st := mkSt (ctx s) (open s) (alive s) (bad s) (clients s) (workers s ++ [x]) (log s).
Definition say (s : st) (e : event) : st := mkSt (ctx s) (open s) (alive s) (bad s) (clients s) (workers s) (log s ++ [e]).

(** [fail]: pthread_create fails; None: the client has to wait *)
Definition stepC (fail : bool) (c : nat) (x : client) (s : st) : option st :=
  match pc x with
  | Idle =>
      match prog x with
      | [] => None
      | Start :: p =>                                       (* thread.cpp:336 *)
          match ctx s with
          | None => Some (setC (setCtx s (Some Fake)) c (mkC SClose p false))
          | Some _ => Some (say (setC (touch s) c (mkC Idle p false)) (Busy c))
          end
      | Join :: p =>                                        (* thread.cpp:383 *)
          if open s then Some (setC (touch s) c (mkC (JWrite false) p false)) else None
      | Destroy :: p =>                                     (* thread.cpp:306, thread.h:174 *)
          if open s then Some (setC (touch s) c (mkC (JWrite true) p false)) else None
      end
  | SClose => Some (setC (setOpen s false) c (mkC SCreate (prog x) false))     (* thread.cpp:339 *)
  | SCreate =>                                              (* thread.cpp:359-376 *)
      if fail then Some (say (setC (setCtx s None) c (mkC Idle (prog x) false)) (NoThread c))
      else Some (setC (addW s (mkW WBoot c)) c (mkC SWait (prog x) false))
  | SWait => if woken x then Some (say (setC s c (mkC Idle (prog x) false)) (Started c)) else None
  | JWrite d =>                                             (* thread.cpp:384 *)
      let s := setC (setCtx s None) c (mkC Idle (prog x) false) in
      Some (if d then kill s else say s (Joined c))
  end.

(** [thr]: the function of the thread throws *)
Definition stepW (thr : bool) (w : nat) (x : worker) (s : st) : option st :=
  let go s p := Some (setW s w (mkW p (starter x))) in
  match wp x with
  | WBoot => go (setCtx s (Some (Real w))) WClose           (* thread.cpp:201 *)
  | WClose => go (setOpen s false) WWake                    (* thread.cpp:213 *)
  | WWake =>                                                (* thread.cpp:215 *)
      match nth_error (clients s) (starter x) with
      | Some y => go (setC s (starter x) (mkC (pc y) (prog y) true)) WFn
      | None => None
      end
  | WFn => go (say s (Begin w)) WRun                        (* thread.cpp:219 *)
  | WRun => go (say s (End_ w)) (WClear (if thr then 1 else 0))   (* thread.cpp:219-228, 104, 95, 99 *)
  | WClear n => go (setCtx s None) (WOpen n)                (* thread.cpp:117 *)
  | WOpen n => go (setOpen s true) (match n with O => WDone | S k => WClear k end)   (* thread.cpp:118 *)
  | WDone => None
  end.

(** one step of a client or of a thread *)
Inductive act := C (c : nat) (fail : bool) | W (w : nat) (thr : bool).
Definition step (a : act) (s : st) : option st :=
  match a with
  | C c fail => match nth_error (clients s) c with Some x => stepC fail c x s | None => None end
  | W w thr => match nth_error (workers s) w with Some x => stepW thr w x s | None => None end
  end.
(** a schedule; steps that cannot be made are left out *)
Fixpoint run (l : list act) (s : st) : st :=
  match l with
  | [] => s
  | a :: l' => run l' (match step a s with Some s' => s' | None => s end)
  end.
