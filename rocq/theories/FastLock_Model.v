(** Model of FastLock: /repo/src/lightspeed/mt/fastlock.h:37-203.

    Any number of threads run; one step is one access to a shared variable (the
    memory is sequentially consistent: every access that matters is volatile,
    interlocked or next to an interlocked one).  A schedule is a list of pairs:
    the thread that moves and what its program calls when it is free to choose.

    A slot lives on the stack of its thread; its address is the pair of the
    thread and a place on its stack, so slots of different threads never
    share an address, while slots of one thread may.  The memory of a slot
    can be read only while the function that declared it runs: reading it
    later is [Crashed].  *)
From Verif Require Import Common.

Notation addr := (nat * nat)%type.

Definition addr_eqb (a b : addr) : bool := (fst a =? fst b) && (snd a =? snd b).

Definition oaddr_eqb (a b : option addr) : bool :=
  match a, b with
  | None, None => true
  | Some x, Some y => addr_eqb x y
  | _, _ => false
  end.

(** where a thread stands; the slot of the running call is at [d] of its stack *)
Inductive pc :=
| Idle                                       (* not in the lock, not owning it *)
| LRead (d : nat)                            (* lock: line 68 *)
| TryCas (d : nat) (lk : bool)               (* tryLock: line 114; lk: called by lock *)
| TryOwn (d : nat)                           (* tryLock: line 118 *)
| AddRead (d : nat)                          (* addToQueue: line 173 *)
| AddNext (d : nat) (tmp : option addr)      (* addToQueue: lines 175-177 *)
| AddCas (d : nat) (tmp : option addr)       (* addToQueue: lines 179-183 *)
| SlowOwn (d : nat)                          (* lockSlow: line 198 *)
| Wait (d : nat)                             (* lockSlow: line 195, the test *)
| Halt (d : nat)                             (* lockSlow: line 195, threadHalt *)
| Crit                                       (* lock or tryLock done, owning *)
| URead                                      (* unlock: line 83 *)
| USet (o : option addr)                     (* unlock: line 85 *)
| UCas (o : option addr)                     (* unlock: lines 87-91 *)
| UScan (o : option addr) (p : addr)         (* unlock: line 93 *)
| UNotify (p : addr)                         (* unlock: line 95 *)
| UOwner (p : addr) (n : nat)                (* unlock: line 97 *)
| UWake (n : nat)                            (* unlock: line 99 *)
| Gone                                       (* the thread ended, its sleeper is freed *)
| Crashed.                                   (* undefined behaviour *)

(** what the program of a thread does next when it is idle or owns the lock *)
Inductive cmd :=
| CLock (d : nat) | CTry (d : nat) | CUnlock | CExit
| CGive (t : nat)      (* tell another, idle thread that it owns the lock now *)
| CPoke.               (* somebody else wakes this thread up *)

Record state := mkState {
  queue : option addr;              (* line 158 *)
  owner : option addr;              (* line 160 *)
  next : addr -> option addr;       (* field Slot::next, line 44 *)
  tok : nat -> bool;                (* the semaphore of a sleeping thread: linux/threadSleeper.cpp:26-54 *)
  pcs : nat -> pc;
  enq : list nat;                   (* log: threads in the order they entered the queue *)
  acq : list nat                    (* log: threads in the order they got the lock *)
}.

(** line 51 *)
Definition init : state :=
  mkState None None (fun _ => None) (fun _ => false) (fun _ => Idle) [] [].

Definition setPc (s : state) (t : nat) (p : pc) : state :=
  mkState (queue s) (owner s) (next s) (tok s) (fun u => if u =? t then p else pcs s u) (enq s) (acq s).
Definition setQueue (s : state) (q : option addr) : state :=
  mkState q (owner s) (next s) (tok s) (pcs s) (enq s) (acq s).
Definition setOwner (s : state) (o : option addr) : state :=
  mkState (queue s) o (next s) (tok s) (pcs s) (enq s) (acq s).
Definition setNext (s : state) (a : addr) (n : option addr) : state :=
  mkState (queue s) (owner s) (fun b => if addr_eqb b a then n else next s b) (tok s) (pcs s) (enq s) (acq s).
Definition setTok (s : state) (t : nat) (b : bool) : state :=
  mkState (queue s) (owner s) (next s) (fun u => if u =? t then b else tok s u) (pcs s) (enq s) (acq s).
Definition logEnq (s : state) (t : nat) : state :=
  mkState (queue s) (owner s) (next s) (tok s) (pcs s) (enq s ++ [t]) (acq s).
Definition logAcq (s : state) (t : nat) : state :=
  mkState (queue s) (owner s) (next s) (tok s) (pcs s) (enq s) (acq s ++ [t]).

(** the slot at an address exists: the function lockSlow (lines 186-201) that
    declared it runs (the slot of tryLock is never linked behind another one) *)
Definition slotLives (s : state) (a : addr) : bool :=
  match pcs s (fst a) with
  | AddRead d | AddNext d _ | AddCas d _ | SlowOwn d | Wait d | Halt d => d =? snd a
  | _ => false
  end.

(** one step of the program of thread [t]; None when it cannot move *)
Definition move (t : nat) (c : cmd) (s : state) : option state :=
  match pcs s t with
  | Idle =>
      match c with
      | CLock d => Some (setPc s t (LRead d))
      | CTry d => Some (setPc s t (TryCas d false))
      | CExit => Some (setPc s t Gone)
      | _ => None
      end
  | LRead d =>
      Some (setPc s t (match queue s with Some _ => AddRead d | None => TryCas d true end))
  | TryCas d lk =>
      match queue s with
      | None => Some (setPc (logEnq (setQueue s (Some (t, d))) t) t (TryOwn d))
      | Some _ => Some (setPc s t (if lk then AddRead d else Idle))
      end
  | TryOwn d => Some (setPc (logAcq (setOwner s (Some (t, d))) t) t Crit)
  | AddRead d => Some (setPc s t (AddNext d (queue s)))
  | AddNext d tmp => Some (setPc (setNext s (t, d) tmp) t (AddCas d tmp))
  | AddCas d tmp =>
      if oaddr_eqb (queue s) tmp then
        Some (setPc (logEnq (setQueue s (Some (t, d))) t) t
               (match tmp with Some _ => Wait d | None => SlowOwn d end))
      else Some (setPc s t (AddNext d (queue s)))
  | SlowOwn d => Some (setPc (logAcq (setOwner s (Some (t, d))) t) t Crit)
  | Wait d =>
      if oaddr_eqb (owner s) (Some (t, d)) then Some (setPc (logAcq s t) t Crit)
      else Some (setPc s t (Halt d))
  | Halt d => if tok s t then Some (setPc (setTok s t false) t (Wait d)) else None
  | Crit =>
      match c with
      | CUnlock => Some (setPc s t URead)
      | CGive u =>
          match pcs s u with
          | Idle => Some (setPc (setPc s t Idle) u Crit)
          | _ => None
          end
      | _ => None
      end
  | URead => Some (setPc s t (USet (owner s)))
  | USet o => Some (setPc (setOwner s None) t (UCas o))
  | UCas o =>
      if oaddr_eqb (queue s) o then Some (setPc (setQueue s None) t Idle)
      else match queue s with
           | Some p => Some (setPc s t (UScan o p))
           | None => Some (setPc s t Crashed)
           end
  | UScan o p =>
      if slotLives s p then
        if oaddr_eqb (next s p) o then Some (setPc s t (UNotify p))
        else match next s p with
             | Some p' => Some (setPc s t (UScan o p'))
             | None => Some (setPc s t Crashed)
             end
      else Some (setPc s t Crashed)
  | UNotify p =>
      if slotLives s p then Some (setPc s t (UOwner p (fst p))) else Some (setPc s t Crashed)
  | UOwner p n => Some (setPc (setOwner s (Some p)) t (UWake n))
  | UWake n =>
      match pcs s n with
      | Gone => Some (setPc s t Crashed)
      | _ => Some (setPc (setTok s n true) t Idle)
      end
  | Gone | Crashed => None
  end.

(** one step of the system *)
Definition exec (tc : nat * cmd) (s : state) : option state :=
  let (t, c) := tc in
  match c with
  | CPoke => Some (setTok s t true)
  | _ => move t c s
  end.

(** a schedule; entries whose thread cannot move are skipped *)
Fixpoint run (sched : list (nat * cmd)) (s : state) : state :=
  match sched with
  | [] => s
  | tc :: sched' => run sched' (match exec tc s with Some s' => s' | None => s end)
  end.
