(** Model of MicroLock and Synchronized<MicroLock>: /repo/src/lightspeed/mt/microlock.h:19-93.

    Any number of threads run; one step is one access to a shared variable (the
    memory is sequentially consistent).  A schedule is a list of pairs: the
    thread that moves and what its program calls when it is free to choose.

    The object Synchronized lives on the stack of its thread; its address is
    the pair of the thread and a place on its stack, so objects of different
    threads never share an address, while those of one thread may (one after
    another).  The memory of an object can be accessed by others only while the
    object exists: an access before or later is [Crashed].  A thread holds one
    object for this lock at a time (a second one would wait for the first). *)
From Verif Require Import Common MicroLock_Spec.

Notation addr := (nat * nat)%type.

Definition addr_eqb (a b : addr) : bool := (fst a =? fst b) && (snd a =? snd b).

Definition oaddr_eqb (a b : option addr) : bool :=
  match a, b with
  | None, None => true
  | Some x, Some y => addr_eqb x y
  | _, _ => false
  end.

(** where a thread stands; its object is at [d] of its stack *)
Inductive pc :=
| Idle                                       (* no object for this lock *)
| LInit (d : nat)                            (* lock: lines 54-56 *)
| LTry (d : nat)                             (* lock: line 59 *)
| LNext (d : nat) (k : option addr)          (* lock: lines 61-63, k differs from next *)
| LCas (d : nat)                             (* lock: line 65 *)
| Wait (d : nat)                             (* lock: line 68, the test *)
| Halt (d : nat)                             (* lock: line 70 *)
| Crit (d : nat)                             (* the constructor returned *)
| UTest (d : nat)                            (* unlock: line 76 *)
| UCas (d : nat)                             (* unlock: lines 78-81 *)
| UScan (d : nat) (k : addr)                 (* unlock: line 83 *)
| UNotify (d : nat) (k : addr)               (* unlock: line 85 *)
| UGive (d : nat) (k : addr) (n : nat)       (* unlock: line 87 *)
| UWake (d : nat) (n : nat)                  (* unlock: line 89 *)
| Gone                                       (* the thread ended, its sleeper is freed *)
| Crashed.                                   (* undefined behaviour *)

(** what the program of a thread does next when it is idle or inside *)
Inductive cmd :=
| CLock (d : nat)      (* declares a Synchronized<MicroLock> at that place *)
| CUnlock              (* leaves the block where it was declared *)
| CExit                (* the thread ends *)
| CPoke.               (* somebody else wakes this thread up *)

Record state := mkState {
  top : option addr;                (* MicroLock::owner, line 34 *)
  next : addr -> option addr;       (* MicroLockData::next, line 20 *)
  tok : nat -> bool;                (* the semaphore of a sleeping thread: linux/threadSleeper.cpp:26-54 *)
  pcs : nat -> pc;
  hist : list event                 (* log for the specification, the oldest first *)
}.

(** line 38 *)
Definition init : state := mkState None (fun _ => None) (fun _ => false) (fun _ => Idle) [].

Definition setPc (s : state) (t : nat) (p : pc) : state :=
  mkState (top s) (next s) (tok s) (fun u => if u =? t then p else pcs s u) (hist s).
Definition setTop (s : state) (q : option addr) : state :=
  mkState q (next s) (tok s) (pcs s) (hist s).
Definition setNext (s : state) (a : addr) (n : option addr) : state :=
  mkState (top s) (fun b => if addr_eqb b a then n else next s b) (tok s) (pcs s) (hist s).
Definition setTok (s : state) (t : nat) (b : bool) : state :=
  mkState (top s) (next s) (fun u => if u =? t then b else tok s u) (pcs s) (hist s).
Definition log (s : state) (e : event) : state :=
  mkState (top s) (next s) (tok s) (pcs s) (hist s ++ [e]).

(** the object at an address exists *)
Definition objLives (s : state) (a : addr) : bool :=
  match pcs s (fst a) with
  | LInit d | LTry d | LNext d _ | LCas d | Wait d | Halt d | Crit d | UTest d | UCas d
  | UScan d _ | UNotify d _ | UGive d _ _ | UWake d _ => d =? snd a
  | _ => false
  end.

(** one step of the program of thread [t]; None when it cannot move *)
Definition move (t : nat) (c : cmd) (s : state) : option state :=
  match pcs s t with
  | Idle =>
      match c with
      | CLock d => Some (setPc s t (LInit d))
      | CExit => Some (setPc s t Gone)
      | _ => None
      end
  | LInit d => Some (setPc (setNext s (t, d) None) t (LTry d))
  | LTry d =>
      match top s with
      | None => Some (setPc (log (setTop s (Some (t, d))) (Lines t)) t (Wait d))
      | Some _ => Some (setPc s t (LNext d (top s)))
      end
  | LNext d k => Some (setPc (setNext s (t, d) k) t (LCas d))
  | LCas d =>
      if oaddr_eqb (top s) (next s (t, d)) then
        Some (setPc (log (setTop s (Some (t, d))) (Lines t)) t (Wait d))
      else Some (setPc s t (LNext d (top s)))
  | Wait d =>
      match next s (t, d) with
      | None => Some (setPc (log s (Gets t)) t (Crit d))
      | Some _ => Some (setPc s t (Halt d))
      end
  | Halt d => if tok s t then Some (setPc (setTok s t false) t (Wait d)) else None
  | Crit d => match c with CUnlock => Some (setPc s t (UTest d)) | _ => None end
  | UTest d =>
      match next s (t, d) with
      | None => Some (setPc s t (UCas d))
      | Some _ => Some (setPc s t Idle)
      end
  | UCas d =>
      if oaddr_eqb (top s) (Some (t, d)) then Some (setPc (log (setTop s None) (Frees t)) t Idle)
      else match top s with
           | Some k => Some (setPc s t (UScan d k))
           | None => Some (setPc s t Crashed)
           end
  | UScan d k =>
      if objLives s k then
        if oaddr_eqb (next s k) (Some (t, d)) then Some (setPc s t (UNotify d k))
        else match next s k with
             | Some k' => Some (setPc s t (UScan d k'))
             | None => Some (setPc s t Crashed)
             end
      else Some (setPc s t Crashed)
  | UNotify d k =>
      if objLives s k then Some (setPc s t (UGive d k (fst k))) else Some (setPc s t Crashed)
  | UGive d k n =>
      if objLives s k then Some (setPc (log (setNext s k None) (Frees t)) t (UWake d n))
      else Some (setPc s t Crashed)
  | UWake d n =>
      match pcs s n with
      | Gone => Some (setPc s t Crashed)
      | _ => Some (setPc (setTok s n true) t Idle)
      end
  | Gone | Crashed => None
  end.

(** one step of the system *)
Definition exec (tc : nat * cmd) (s : state) : option state :=
  let (t, c) := tc in
  match c with
  | CPoke => Some (setTok s t true)
  | _ => move t c s
  end.

(** a schedule; entries whose thread cannot move are skipped *)
Fixpoint run (sched : list (nat * cmd)) (s : state) : state :=
  match sched with
  | [] => s
  | tc :: sched' => run sched' (match exec tc s with Some s' => s' | None => s end)
  end.
