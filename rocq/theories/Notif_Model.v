(** Model of Notifier (mt/notifier.h, mt/notifier.cpp) and of sleeping threads on Linux (mt/linux/threadSleeper.cpp,
    mt/linux/thread.cpp:407-437): one thread owns a notifier, waits and sleeps; any number of other threads call wakeUp of the
    notifier, wakeUp of the thread, or finish() of it.

    One step is one access to shared memory or one operation of the POSIX semaphore; the memory is sequentially consistent.
    The semaphore counts up and down; sem_timedwait does not time out if it can go on at once.  The failures of sem_timedwait
    other than ETIMEDOUT and EINTR are not modelled. *)
From Verif Require Import Common Notif_Spec.

(** the calls that sleep: notifier.cpp:10-22 wait, thread.h:241-256 sleep, thread.cpp:413-415 deepSleep *)
Inductive ctx := XWait (timed exit : bool) | XSleep (timed : bool) | XDeep (timed : bool).
(** the owner: W1 reads signaled (notifier.cpp:13, 17), W2 reads the finish flag (notifier.cpp:13), W3 reads signaled for the
    result (notifier.cpp:21); tm is tmevent; Sl waits for the semaphore (threadSleeper.cpp:39-51), Dr empties it
    (threadSleeper.cpp:52) *)
Inductive opc := Free | W1 (x : ctx) (tm : bool) | W2 (x : ctx) (tm : bool) | W3 | Sl (x : ctx) | Dr (x : ctx).
(** other threads: N1 saves forward, N2 stores the reason, N3 sets signaled (notifier.h:61, 63, 65); F1 sets the finish flag
    (thread.cpp:430); S1 stores the reason of the thread, S2 reads the semaphore, S3 posts it (threadSleeper.cpp:28-30) *)
Inductive kpc := KIdle | N1 (r : Z) | N2 (r : Z) | N3 (r : Z) | F1 | S1 (r : Z) | S2 | S3 (full : bool).

Record st := mkS { sig : bool; rsn : Z; alive : bool; sem : nat; srsn : Z; fin : bool; own : opc; pcs : nat -> kpc; log : history }.
(** [Broken]: the memory of a destroyed notifier is used *)
Inductive res := Moved (s : st) | Blocked | Broken.
(** events of the owner: a call, a step, the timeout, a signal of the system *)
Inductive oev := OCall (c : call) | Go | Expire | Intr.
Inductive kev := KCall (a : what) | KGo.
Inductive evt := Own (e : oev) | Wk (t : nat) (e : kev).

Definition goto (s : st) (p : opc) : st := mkS (sig s) (rsn s) (alive s) (sem s) (srsn s) (fin s) p (pcs s) (log s).
Definition note (s : st) (e : ev) : st := mkS (sig s) (rsn s) (alive s) (sem s) (srsn s) (fin s) (own s) (pcs s) (e :: log s).
Definition setSig (s : st) (b : bool) : st := mkS b (rsn s) (alive s) (sem s) (srsn s) (fin s) (own s) (pcs s) (log s).
Definition setRsn (s : st) (r : Z) : st := mkS (sig s) r (alive s) (sem s) (srsn s) (fin s) (own s) (pcs s) (log s).
Definition kill (s : st) : st := mkS (sig s) (rsn s) false (sem s) (srsn s) (fin s) (own s) (pcs s) (log s).
Definition setSem (s : st) (n : nat) : st := mkS (sig s) (rsn s) (alive s) n (srsn s) (fin s) (own s) (pcs s) (log s).
Definition setSrsn (s : st) (r : Z) : st := mkS (sig s) (rsn s) (alive s) (sem s) r (fin s) (own s) (pcs s) (log s).
Definition setFin (s : st) : st := mkS (sig s) (rsn s) (alive s) (sem s) (srsn s) true (own s) (pcs s) (log s).
Definition kgoto (s : st) (t : nat) (p : kpc) : st :=
  mkS (sig s) (rsn s) (alive s) (sem s) (srsn s) (fin s) (own s) (fun u => if u =? t then p else pcs s u) (log s).

(** a call ends *)
Definition give (s : st) (r : ret) : res := Moved (note (goto s Free) (Ret r)).
(** a step that uses the memory of the notifier *)
Definition use (s : st) (r : res) : res := if alive s then r else Broken.
(** after sleep() of the thread: threadSleeper.cpp:46, 49, 53; thread.cpp:407-411 the reason; thread.cpp:413-415; notifier.cpp:14, 18 *)
Definition awake (s : st) (x : ctx) (timedout : bool) : res :=
  match x with
  | XWait _ _ => Moved (goto s (W1 x timedout))
  | XSleep _ => give s (RSleep timedout (if timedout then Some (srsn s) else None))
  | XDeep _ => if timedout then give s RDeep else Moved (goto s (Sl x))
  end.
Definition timed (x : ctx) : bool := match x with XWait b _ | XSleep b | XDeep b => b end.
Definition exits (x : ctx) : bool := match x with XWait _ b => b | _ => false end.

Definition ostep (e : oev) (s : st) : res :=
  match own s, e with
  | Free, OCall c =>
      let s1 := note s (Call c) in
      match c with
      | CWait m x => Moved (goto s1 (W1 (XWait m x) false))          (* notifier.cpp:10-11 *)
      | CSleep m => Moved (goto s1 (Sl (XSleep m)))
      | CDeep m => Moved (goto s1 (Sl (XDeep m)))
      | CTest => use s (give s1 (RTest (sig s)))                     (* notifier.h:75 *)
      | CReset => use s (give (setSig s1 false) RReset)              (* notifier.h:90-92 *)
      | CDestroy => use s (give (kill s1) RDestroy)
      end
  (* notifier.cpp:12-20 *)
  | W1 x tm, Go => use s (Moved (goto s (if sig s then W3 else if exits x then W2 x tm else if tm then W3 else Sl x)))
  | W2 x tm, Go => Moved (goto s (if fin s then W3 else if tm then W3 else Sl x))
  | W3, Go => use s (give s (RWait (sig s)))                         (* notifier.cpp:21 *)
  (* threadSleeper.cpp:38-54 *)
  | Sl x, Go => match sem s with O => Blocked | S n => Moved (goto (setSem s n) (Dr x)) end
  | Sl x, Expire => if timed x then match sem s with O => awake (note s Expired) x true | S _ => Blocked end else Blocked
  | Sl x, Intr => if timed x then awake s x false else Moved (goto s (Dr x))
  | Dr x, Go => match sem s with O => awake s x false | S n => Moved (setSem s n) end
  | _, _ => Blocked
  end.

Definition natural_null : Z := 2 ^ 64 - 1.
Definition kstep (t : nat) (e : kev) (s : st) : res :=
  match pcs s t, e with
  | KIdle, KCall a =>
      Moved (kgoto (note s (Start t a)) t (match a with ANotify r => N1 r | APoke r => S1 r | AFinish => F1 end))
  (* notifier.h:59-68 *)
  | N1 r, KGo => use s (Moved (kgoto s t (N2 r)))
  | N2 r, KGo => use s (Moved (kgoto (setRsn s r) t (N3 r)))
  | N3 r, KGo => use s (Moved (kgoto (setSig s true) t (S1 r)))
  (* thread.cpp:429-432 *)
  | F1, KGo => Moved (kgoto (setFin s) t (S1 natural_null))
  (* thread.cpp:417-421, threadSleeper.cpp:26-32 *)
  | S1 r, KGo => Moved (kgoto (setSrsn s r) t S2)
  | S2, KGo => Moved (kgoto s t (S3 (1 <=? sem s)))
  | S3 full, KGo => Moved (note (kgoto (if full : bool then s else setSem s (S (sem s))) t KIdle) (End t))
  | _, _ => Blocked
  end.
Definition step (e : evt) (s : st) : res := match e with Own e => ostep e s | Wk t e => kstep t e s end.
Fixpoint run (l : list evt) (s : st) : res :=
  match l with [] => Moved s | e :: r => match step e s with Moved s1 => run r s1 | x => x end end.
(** notifier.h:46, notifier.cpp:7: a new notifier of a thread that was not woken up *)
Definition init : st := mkS false 0 true 0 0 false Free (fun _ => KIdle) [].

(** thread.cpp:439-442: isFinishing() of thread [t], called by thread [cur]; [flags]: the finish flags of the threads *)
Definition isFinishing (flags : nat -> bool) (cur t : nat) : bool := flags cur.
