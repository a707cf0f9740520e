(** Model of Mutex: /repo/src/lightspeed/mt/mutex.cpp and mutex.h:17-94.

    Any number of threads; one step is one access to a shared variable, the memory is
    sequentially consistent.  A schedule is a list of pairs: the thread that moves and what its
    program calls when it is free to choose.  The chain of waiting slots (SyncPtT, syncPt.h:302-375)
    is changed under its own lock: registering and removing a slot is one step, notifyOne keeps the
    lock until it has notified.  One slot of each thread can wait, so a slot is its thread.
    lockAsync, cancelAsync and setOwner are not modelled. *)
From Verif Require Import Common.

(** where a thread stands *)
Inductive pc :=
| Idle
| LCas                      (* lock: mutex.cpp:18-20 *)
| LInc                      (* lock: mutex.cpp:25 *)
| LAdd                      (* lock: mutex.cpp:30-34 *)
| LCas2                     (* lock: mutex.cpp:36 *)
| LWait                     (* lock: mutex.cpp:38, SyncPt::wait, syncPt.cpp:18-25 *)
| LLate                     (* lock: mutex.cpp:40, after a timeout *)
| LTest                     (* lock: mutex.cpp:42 *)
| LDone                     (* lock: mutex.cpp:47, the slot is removed *)
| LRec                      (* lock: mutex.cpp:51 *)
| TCas                      (* tryLock: mutex.cpp:64-68 *)
| URead                     (* unlock: mutex.cpp:74 *)
| UDec                      (* unlock: mutex.cpp:76 *)
| UPop                      (* unlock: mutex.cpp:84, popSlot_lk, syncPt.h:349-354 *)
| URec (w : nat)            (* MutexData::operator=, mutex.cpp:146-148, syncPt.h:372 *)
| UOwn (w : nat)            (* mutex.cpp:149 *)
| USig (w : nat)            (* syncPt.h:373 *)
| UFree                     (* unlock: mutex.cpp:86 *)
| UEmpty                    (* unlock: mutex.cpp:89, empty *)
| UTry.                     (* unlock: mutex.cpp:89, tryLock *)

Inductive cmd := CLock | CTry | CUnlock | CTimeout.

Record state := mkState {
  owner : option nat;       (* mutex.h:90, None for 0 *)
  recursion : nat;          (* mutex.h:92 *)
  queue : list nat;         (* mutex.h:91: the waiting slots, the oldest first *)
  qlock : bool;             (* queueLock of waitPt is owned *)
  signaled : nat -> bool;   (* the slot of the thread is signaled *)
  pcs : nat -> pc;
  held : nat -> nat         (* log: how often the thread locked minus how often it started to unlock *)
}.

(** mutex.h:33; [r] is 0 for a new mutex *)
Definition init (r : nat) : state := mkState None r [] false (fun _ => false) (fun _ => Idle) (fun _ => 0).

Definition fset {A} (f : nat -> A) (t : nat) (a : A) : nat -> A := fun u => if u =? t then a else f u.
Definition setPc (s : state) (t : nat) (p : pc) : state :=
  mkState (owner s) (recursion s) (queue s) (qlock s) (signaled s) (fset (pcs s) t p) (held s).
Definition setOwner (s : state) (o : option nat) : state :=
  mkState o (recursion s) (queue s) (qlock s) (signaled s) (pcs s) (held s).
Definition setRec (s : state) (r : nat) : state :=
  mkState (owner s) r (queue s) (qlock s) (signaled s) (pcs s) (held s).
Definition setQueue (s : state) (q : list nat) (l : bool) : state :=
  mkState (owner s) (recursion s) q l (signaled s) (pcs s) (held s).
Definition setSig (s : state) (t : nat) (b : bool) : state :=
  mkState (owner s) (recursion s) (queue s) (qlock s) (fset (signaled s) t b) (pcs s) (held s).
Definition setHeld (s : state) (t n : nat) : state :=
  mkState (owner s) (recursion s) (queue s) (qlock s) (signaled s) (pcs s) (fset (held s) t n).

Definition isSome {A} (o : option A) : bool := match o with Some _ => true | None => false end.

(** the owner after a call returns true *)
Definition done (s : state) (t : nat) : state := setPc (setHeld s t (held s t + 1)) t Idle.

(** one step of thread [t]; None when it cannot move.  The program unlocks only what it locked. *)
Definition move (t : nat) (c : cmd) (s : state) : option state :=
  match pcs s t with
  | Idle =>
      match c with
      | CLock => Some (setPc s t LCas)
      | CTry => Some (setPc s t TCas)
      | CUnlock => if 0 <? held s t then Some (setPc (setHeld s t (held s t - 1)) t URead) else None
      | CTimeout => None
      end
  | LCas =>
      match owner s with
      | None => Some (setPc (setOwner s (Some t)) t LRec)
      | Some o => Some (setPc s t (if o =? t then LInc else LAdd))
      end
  | LInc => Some (done (setRec s (recursion s + 1)) t)
  | LAdd => if qlock s then None else Some (setPc (setSig (setQueue s (queue s ++ [t]) false) t false) t LCas2)
  | LCas2 =>
      match owner s with
      | None => Some (setPc (setOwner s (Some t)) t LDone)
      | Some _ => Some (setPc s t LWait)
      end
  | LWait =>
      if signaled s t then Some (setPc s t LRec)
      else match c with CTimeout => Some (setPc s t LLate) | _ => None end
  | LLate => if qlock s then None else Some (setPc (setQueue s (remove Nat.eq_dec t (queue s)) false) t LTest)
  | LTest => if signaled s t then Some (setPc s t LRec) else Some (setPc s t Idle)
  | LDone => if qlock s then None else Some (setPc (setQueue s (remove Nat.eq_dec t (queue s)) false) t LRec)
  | LRec => Some (done (setRec s 1) t)
  | TCas =>
      match owner s with
      | None => Some (done (setOwner s (Some t)) t)
      | Some _ => Some (setPc s t Idle)
      end
  | URead => Some (setPc s t (if 1 <? recursion s then UDec else UPop))
  | UDec => Some (setPc (setRec s (recursion s - 1)) t Idle)
  | UPop =>
      if qlock s then None
      else match queue s with
           | [] => Some (setPc s t UFree)
           | w :: q => Some (setPc (setQueue s q true) t (URec w))
           end
  | URec w => Some (setPc (setRec s 1) t (UOwn w))
  | UOwn w => Some (setPc (setOwner s (Some w)) t (USig w))
  | USig w => Some (setPc (setSig (setQueue s (queue s) false) w true) t Idle)
  | UFree => Some (setPc (setOwner s None) t UEmpty)
  | UEmpty => Some (setPc s t (match queue s with [] => Idle | _ => UTry end))
  | UTry =>
      match owner s with
      | None => Some (setPc (setOwner s (Some t)) t URead)
      | Some _ => Some (setPc s t Idle)
      end
  end.

Fixpoint run (sched : list (nat * cmd)) (s : state) : state :=
  match sched with
  | [] => s
  | (t, c) :: r => run r (match move t c s with Some s' => s' | None => s end)
  end.
