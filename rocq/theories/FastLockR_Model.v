(** Model of the recursive lock FastLockR: /repo/src/lightspeed/mt/fastlock.h:206-340.

    The FastLock below is taken as what C32 and C33 show of it: tryLock gets it
    exactly when it is free, lockSlow gets it when it is free and waits
    otherwise, unlock frees it.  One step is one such call or one access to a
    field of FastLockR.  The identifier of thread [t] (getCurThreadId) is
    [S t], which is never 0. *)
From Verif Require Import Common.

(** who called tryLock (fastlock.h:245-265) *)
Inductive ctx :=
| XLock                 (* lock, fastlock.h:213-227 *)
| XTry                  (* the program *)
| XRestore (n : nat).   (* lock called by lockRestoreRecursion, fastlock.h:320 *)

(** where a thread is; the lines are those of fastlock.h *)
Inductive rpc :=
| RIdle
| RTry (x : ctx)        (* line 248, FastLock::tryLock *)
| RTryCount (x : ctx)   (* line 250 *)
| RTryOwner (x : ctx)   (* line 251 *)
| RTest (x : ctx)       (* line 257 *)
| RInc (x : ctx)        (* line 259 *)
| RSlow (x : ctx)       (* line 220 *)
| RSlowOwner (x : ctx)  (* line 222 *)
| RSlowCount (x : ctx)  (* line 224 *)
| RUn1                  (* line 274, the owner *)
| RUn2                  (* line 274, the count *)
| RUn3                  (* line 276 *)
| RUn4                  (* line 278 *)
| RUn5                  (* line 280 *)
| RSave1                (* line 297 *)
| RSave2                (* line 298 *)
| RSave3                (* line 299 *)
| RRest1 (n : nat)      (* line 322 *)
| RRest2 (n : nat)      (* line 330 *)
| RRestTry (n : nat).   (* line 317 *)

Inductive rcmd := CLock | CTry | CUnlock | CSave | CRestore (n : nat) (try : bool).

Record rstate := mkR {
  held : option nat;        (* the thread that owns the FastLock *)
  ownerThread : nat;        (* line 336 *)
  recursiveCount : nat;     (* line 337 *)
  rpcs : nat -> rpc;
  depth : nat -> nat        (* how many times a thread has locked, as its program knows *)
}.

(** the constructor, fastlock.h:208 *)
Definition rinit : rstate := mkR None 0 0 (fun _ => RIdle) (fun _ => 0).

Definition at_ (s : rstate) (t : nat) (p : rpc) : rstate :=
  mkR (held s) (ownerThread s) (recursiveCount s) (fun u => if u =? t then p else rpcs s u) (depth s).
Definition setHeld (s : rstate) (h : option nat) : rstate :=
  mkR h (ownerThread s) (recursiveCount s) (rpcs s) (depth s).
Definition setOwn (s : rstate) (o : nat) : rstate :=
  mkR (held s) o (recursiveCount s) (rpcs s) (depth s).
Definition setCount (s : rstate) (n : nat) : rstate :=
  mkR (held s) (ownerThread s) n (rpcs s) (depth s).
Definition setDepth (s : rstate) (t n : nat) : rstate :=
  mkR (held s) (ownerThread s) (recursiveCount s) (rpcs s) (fun u => if u =? t then n else depth s u).

(** the lock was obtained: back to the program *)
Definition got (s : rstate) (t : nat) (x : ctx) : rstate :=
  match x with
  | XRestore n => at_ s t (RRest1 n)
  | _ => at_ (setDepth s t (S (depth s t))) t RIdle
  end.

(** one step of a thread (fastlock.h:213-333); an idle thread does the given
    command *)
Definition rexec (tc : nat * rcmd) (s : rstate) : option rstate :=
  let (t, c) := tc in
  match rpcs s t with
  | RIdle =>
      match c with
      | CLock => Some (at_ s t (RTry XLock))
      | CTry => Some (at_ s t (RTry XTry))
      | CUnlock =>
          (* a program unlocks what it locked *)
          match depth s t with
          | O => None
          | S n => Some (at_ (setDepth s t n) t RUn1)
          end
      | CSave =>
          match depth s t with
          | O => None
          | S _ => Some (at_ (setDepth s t 0) t RSave1)
          end
      | CRestore n tr => Some (at_ s t (if tr then RRestTry n else RTry (XRestore n)))
      end
  | RTry x =>
      match held s with
      | None => Some (at_ (setHeld s (Some t)) t (RTryCount x))
      | Some _ => Some (at_ s t (RTest x))
      end
  | RTryCount x => Some (at_ (setCount s 1) t (RTryOwner x))
  | RTryOwner x => Some (got (setOwn s (S t)) t x)
  | RTest x =>
      if ownerThread s =? S t then Some (at_ s t (RInc x))
      else Some (at_ s t (match x with XTry => RIdle | _ => RSlow x end))
  | RInc x => Some (got (setCount s (S (recursiveCount s))) t x)
  | RSlow x =>
      match held s with
      | None => Some (at_ (setHeld s (Some t)) t (RSlowOwner x))
      | Some _ => None
      end
  | RSlowOwner x => Some (at_ (setOwn s (S t)) t (RSlowCount x))
  | RSlowCount x => Some (got (setCount s 1) t x)
  | RUn1 => Some (at_ s t (if ownerThread s =? S t then RUn2 else RIdle))
  | RUn2 => Some (at_ s t (if 0 <? recursiveCount s then RUn3 else RIdle))
  | RUn3 =>
      let n := pred (recursiveCount s) in
      Some (at_ (setCount s n) t (if n =? 0 then RUn4 else RIdle))
  | RUn4 => Some (at_ (setOwn s 0) t RUn5)
  | RUn5 => Some (at_ (setHeld s None) t RIdle)
  | RSave1 => Some (at_ s t RSave2)
  | RSave2 => Some (at_ (setCount s 0) t RSave3)
  | RSave3 => Some (at_ (setHeld s None) t RIdle)
  | RRest1 n =>
      if recursiveCount s =? 1 then Some (at_ s t (RRest2 n)) else Some (at_ s t RUn1)
  | RRest2 n => Some (at_ (setDepth (setCount s n) t n) t RIdle)
  | RRestTry n =>
      match held s with
      | None => Some (at_ (setHeld s (Some t)) t (RRest2 n))
      | Some _ => Some (at_ s t RIdle)
      end
  end.

Fixpoint rrun (sched : list (nat * rcmd)) (s : rstate) : rstate :=
  match sched with
  | [] => s
  | tc :: sched' => rrun sched' (match rexec tc s with Some s' => s' | None => s end)
  end.
