(** Model of SpinLock and SpinLockRecursive: /repo/src/lightspeed/mt/spinlock.h.

    Any number of threads; one step is one access to a shared variable, the memory is
    sequentially consistent.  A schedule is a list of pairs: the thread that moves and what its
    program calls when it is free to choose. *)
From Verif Require Import Common.

(** ** SpinLock, spinlock.h:35-160 *)

(** where a thread stands *)
Inductive spc :=
| SIdle
| SLock                      (* lock: spinlock.h:66-69 *)
| SGive (u : nat)            (* give, before the write: spinlock.h:125 *)
| SSteal (u : nat).          (* steal, before the write: spinlock.h:146 *)

Inductive scmd := SCLock | SCTry | SCUnlock | SCGive (u : nat) | SCSteal (u : nat).

Record sstate := mkS {
  sowner : option nat;       (* spinlock.h:160, None for 0 *)
  spcs : nat -> spc;
  sheld : nat -> bool        (* log: the thread was told that it owns the lock and did not give it away *)
}.
(** spinlock.h:39 *)
Definition sinit : sstate := mkS None (fun _ => SIdle) (fun _ => false).

Definition oset {A} (f : nat -> A) (t : nat) (a : A) : nat -> A := fun u => if u =? t then a else f u.

(** tryLock, spinlock.h:50-54: the new owner and the answer *)
Definition strylock (t : nat) (o : option nat) : option nat * bool :=
  match o with
  | None => (Some t, true)
  | Some u => (o, u =? t)
  end.

Definition smove (t : nat) (c : scmd) (s : sstate) : option sstate :=
  match spcs s t with
  | SIdle =>
      match c with
      | SCLock => Some (mkS (sowner s) (oset (spcs s) t SLock) (sheld s))
      | SCTry =>
          let (o, ok) := strylock t (sowner s) in
          Some (mkS o (spcs s) (if ok then oset (sheld s) t true else sheld s))
      | SCUnlock =>
          (* spinlock.h:57-60 *)
          Some (mkS (match sowner s with Some u => if u =? t then None else sowner s | None => None end) (spcs s)
                 (oset (sheld s) t false))
      | SCGive u =>
          (* spinlock.h:124, isOwned, 87-89 *)
          match sowner s with
          | Some v => if v =? t then Some (mkS (sowner s) (oset (spcs s) t (SGive u)) (sheld s)) else Some s
          | None => Some s
          end
      | SCSteal u =>
          (* spinlock.h:145, isOwned, 97-99 *)
          match sowner s with
          | Some v => if v =? u then Some (mkS (sowner s) (oset (spcs s) t (SSteal u)) (sheld s)) else Some s
          | None => Some s
          end
      end
  | SLock =>
      let (o, ok) := strylock t (sowner s) in
      if ok then Some (mkS o (oset (spcs s) t SIdle) (oset (sheld s) t true)) else Some s
  | SGive u => Some (mkS (Some u) (oset (spcs s) t SIdle) (oset (oset (sheld s) t false) u true))
  | SSteal u => Some (mkS (Some t) (oset (spcs s) t SIdle) (oset (oset (sheld s) u false) t true))
  end.

Fixpoint srun (sched : list (nat * scmd)) (s : sstate) : sstate :=
  match sched with
  | [] => s
  | (t, c) :: r => srun r (match smove t c s with Some s' => s' | None => s end)
  end.

(** ** SpinLockRecursive, spinlock.h:171-212 *)
Inductive rpc :=
| RIdle
| RTry (spin : bool)         (* tryLock: spinlock.h:177-178; spin: called by lock *)
| RSet                       (* spinlock.h:180 *)
| RInc                       (* spinlock.h:183 *)
| RUnlock                    (* unlock: spinlock.h:192 *)
| RDec                       (* spinlock.h:193 *)
| RFree.                     (* spinlock.h:194 *)

Inductive rcmd := RCLock | RCTry | RCUnlock.

Record rstate := mkR {
  rowner : option nat;
  rcount : nat;              (* spinlock.h:211 *)
  rpcs : nat -> rpc;
  rheld : nat -> nat         (* log: how often the thread locked minus how often it started to unlock *)
}.
(** spinlock.h:174 *)
Definition rinit : rstate := mkR None 0 (fun _ => RIdle) (fun _ => 0).

Definition rsetPc (s : rstate) (t : nat) (p : rpc) : rstate := mkR (rowner s) (rcount s) (oset (rpcs s) t p) (rheld s).

(** the program unlocks as often as it locked *)
Definition rmove (t : nat) (c : rcmd) (s : rstate) : option rstate :=
  match rpcs s t with
  | RIdle =>
      match c with
      | RCLock => Some (rsetPc s t (RTry true))
      | RCTry => Some (rsetPc s t (RTry false))
      | RCUnlock =>
          if 0 <? rheld s t then Some (mkR (rowner s) (rcount s) (oset (rpcs s) t RUnlock) (oset (rheld s) t (rheld s t - 1)))
          else None
      end
  | RTry spin =>
      match rowner s with
      | None => Some (mkR (Some t) (rcount s) (oset (rpcs s) t RSet) (rheld s))
      | Some u => if u =? t then Some (rsetPc s t RInc) else if spin then Some s else Some (rsetPc s t RIdle)
      end
  | RSet => Some (mkR (rowner s) 1 (oset (rpcs s) t RIdle) (oset (rheld s) t (rheld s t + 1)))
  | RInc => Some (mkR (rowner s) (rcount s + 1) (oset (rpcs s) t RIdle) (oset (rheld s) t (rheld s t + 1)))
  | RUnlock =>
      match rowner s with
      | Some u => if u =? t then Some (rsetPc s t RDec) else Some (rsetPc s t RIdle)
      | None => Some (rsetPc s t RIdle)
      end
  | RDec => Some (mkR (rowner s) (rcount s - 1) (oset (rpcs s) t (if rcount s - 1 =? 0 then RFree else RIdle)) (rheld s))
  | RFree => Some (mkR None (rcount s) (oset (rpcs s) t RIdle) (rheld s))
  end.

Fixpoint rrun (sched : list (nat * rcmd)) (s : rstate) : rstate :=
  match sched with
  | [] => s
  | (t, c) :: r => rrun r (match rmove t c s with Some s' => s' | None => s end)
  end.
