(** Model of Semaphore: /repo/src/lightspeed/mt/semaphore.h:17-123, on the model
    of SyncPt (of which it is a private heir, order [Oldest]).

    Every function works under queueLock, so it is one step, except
    cancelLockAsync, which takes the lock twice.  A lock call makes one slot,
    which dies when the call ends. *)
From Verif Require Import Common SyncPt_Spec SyncPt_Model.

Inductive spc :=
| SIdle
| SWait (p : nat) (timed : bool)   (* inside SyncPt::wait, syncPt.cpp:18-25 *)
| SBack (p : nat).                 (* semaphore.h:102, after remove failed *)

Record sem := mkSem {
  smem : mem;
  scq : option nat;
  counter : nat;                   (* semaphore.h:122 *)
  spcs : nat -> spc;
  entered : nat;                   (* how many lock and tryLock calls succeeded *)
  released : nat;                  (* how many times unlock was called *)
  dropped : nat                    (* permits that came to cancelled requests *)
}.

(** semaphore.h:25 *)
Definition seminit (n : nat) : sem := mkSem [] None n (fun _ => SIdle) 0 0 0.

Definition setMem (s : sem) m cq := mkSem m cq (counter s) (spcs s) (entered s) (released s) (dropped s).
Definition setPc (s : sem) t p :=
  mkSem (smem s) (scq s) (counter s) (fun u => if u =? t then p else spcs s u) (entered s) (released s) (dropped s).
Definition setCounter (s : sem) n := mkSem (smem s) (scq s) n (spcs s) (entered s) (released s) (dropped s).
Definition incEntered (s : sem) := mkSem (smem s) (scq s) (counter s) (spcs s) (S (entered s)) (released s) (dropped s).
Definition incReleased (s : sem) := mkSem (smem s) (scq s) (counter s) (spcs s) (entered s) (S (released s)) (dropped s).
Definition incDropped (s : sem) := mkSem (smem s) (scq s) (counter s) (spcs s) (entered s) (released s) (S (dropped s)).

(** semaphore.h:68-77 *)
Definition semUnlock (s : sem) : outcome sem :=
  let! (m, cq, p) := popSlot Oldest (smem s) (scq s) in
  match p with
  | None => Ok (setCounter (setMem s m cq) (S (counter s)))
  | Some p => let! m := notify m p in Ok (setMem s m cq)
  end.

(** semaphore.h:79-87 *)
Definition semTry (s : sem) : sem * bool :=
  match counter s with
  | O => (s, false)
  | S n => (setCounter s n, true)
  end.

(** semaphore.h:89-97 *)
Definition lockAsync (s : sem) (p : nat) : outcome sem :=
  match counter s with
  | S n => let! m := notify (smem s) p in Ok (setCounter (setMem s m (scq s)) n)
  | O => let! (m, cq) := add_lk (smem s) (scq s) p in Ok (setMem s m cq)
  end.

Definition endSlot (s : sem) (p : nat) : outcome sem :=
  let! m := kill (smem s) p in Ok (setMem s m (scq s)).

Inductive semcmd :=
| KLock        (* lock(), semaphore.h:28-32, or lockAsync and wait *)
| KLockTimed   (* lock(timeout), semaphore.h:35-65 *)
| KTry         (* tryLock() *)
| KUnlock      (* unlock() *)
| KCancel      (* cancelLockAsync, semaphore.h:98-104, of the own request *)
| KTimeout.    (* the time is up *)

Definition semexec (tc : nat * semcmd) (s : sem) : outcome sem :=
  let (t, c) := tc in
  let start (timed : bool) :=
    let p := length (smem s) in
    let! s := lockAsync (setMem s (smem s ++ [freshSlot]) (scq s)) p in
    Ok (setPc s t (SWait p timed)) in
  match spcs s t with
  | SIdle =>
      match c with
      | KLock => start false
      | KLockTimed => start true
      | KTry => let (s, b) := semTry s in Ok (if b then incEntered s else s)
      | KUnlock => let! s := semUnlock s in Ok (incReleased s)
      | KCancel | KTimeout => Ok s
      end
  | SWait p timed =>
      let! x := get (smem s) p in
      match c, timed with
      | KCancel, false =>
          let! (m, cq, b) := remove (smem s) (scq s) p in
          let s := setMem s m cq in
          if b then
            let! s := endSlot s p in
            Ok (setPc (if psignaled x then incDropped s else s) t SIdle)
          else Ok (setPc s t (SBack p))
      | KTimeout, true =>
          (* the slot is not taken from the queue *)
          let! s := endSlot s p in
          Ok (setPc (if psignaled x then incEntered s else s) t SIdle)
      | _, _ =>
          if psignaled x then
            let! s := endSlot s p in Ok (setPc (incEntered s) t SIdle)
          else Ok s
      end
  | SBack p =>
      let! x := get (smem s) p in
      if psignaled x then
        let! s := semUnlock s in
        let! s := endSlot s p in
        Ok (setPc (incDropped (incReleased s)) t SIdle)
      else let! s := endSlot s p in Ok (setPc s t SIdle)
  end.

Fixpoint semrun (sched : list (nat * semcmd)) (s : sem) : outcome sem :=
  match sched with
  | [] => Ok s
  | tc :: sched' => let! s := semexec tc s in semrun sched' s
  end.
