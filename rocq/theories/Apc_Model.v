(** Model of asynchronous procedure calls: /repo/src/lightspeed/mt/apc.h (IAPCServer,
    AbstractAPCServer) and apcthread.cpp (APCThread::impSleep).  Any number of
    threads queue messages, one thread runs them; each step is one access to the
    queue or one turn of a loop.  A message is known by its address; every
    message is queued once. *)
From Verif Require Import Common Apc_Spec.

(** a thread that queues message m: before the call; in the loop 94-96 with [n] read
    in 93; returned *)
Inductive ppc := P0 | PLoop (n : option nat) | PRet.
(** the thread of the server: in executeOne before 140, before 142, in the loop 150-152,
    before 153; in rejectAll at 130; nothing to do *)
Inductive cpc := E0 | ENext (k : nat) | ELoop (k : nat) | ELast (k : nat) | RLoop (k : option nat) | CRet.

Record st := mkSt {
  queue : option nat;             (* apc.h:137 *)
  nexts : nat -> option nat;      (* apc.h:42, by message *)
  prod : list ppc;                (* the thread that queues message m, by m *)
  cons_ : cpc;
  log : list event
}.
(** [n] messages to be queued *)
Definition init (n : nat) : st := mkSt None (fun _ => None) (repeat P0 n) CRet [].

Definition oeqb (a b : option nat) : bool :=
  match a, b with Some x, Some y => x =? y | None, None => true | _, _ => false end.
Definition setQ (s : st) (q : option nat) : st := mkSt q (nexts s) (prod s) (cons_ s) (log s).
(** apc.h:71 *)
Definition setNext (s : st) (p : nat) (q : option nat) : st :=
  mkSt (queue s) (fun x => if x =? p then q else nexts s x) (prod s) (cons_ s) (log s).
(** apc.h:72 *)
Definition getNext (s : st) (p : nat) : option nat := Some p.
Definition setP (s : st) (m : nat) (p : ppc) : st := mkSt (queue s) (nexts s) (upd (prod s) m p) (cons_ s) (log s).
Definition setE (s : st) (c : cpc) : st := mkSt (queue s) (nexts s) (prod s) c (log s).
Definition say (s : st) (e : event) : st := mkSt (queue s) (nexts s) (prod s) (cons_ s) (log s ++ [e]).

(** lockCompareExchangePtr, linux/atomic.h:165-182: the old value and the new state *)
Definition cas (s : st) (cmp val : option nat) : option nat * st :=
  (queue s, if oeqb (queue s) cmp then setQ s val else s).

(** apc.h:92-98 *)
Definition stepP (m : nat) (p : ppc) (s : st) : option st :=
  match p with
  | P0 => Some (setP s m (PLoop (queue s)))
  | PLoop n =>
      let r := cas (setNext s m n) n (Some m) in
      match fst r with
      | Some _ => Some (snd r)
      | None => Some (say (setP (snd r) m PRet) (Queued m (oeqb n None)))
      end
  | PRet => None
  end.

(** apc.h:139-158, 107-109: after a message was run the next turn of executeQueue begins;
    [r]: the idle server calls rejectAll (128-135) instead of executeQueue *)
Definition stepC (r : bool) (s : st) : option st :=
  match cons_ s with
  | CRet => Some (setE s (if r then RLoop (queue s) else E0))
  | E0 => match queue s with None => Some (setE s CRet) | Some k => Some (setE s (ENext k)) end
  | ENext k =>
      match getNext s k with
      | Some _ => Some (setE s (ELoop k))
      | None =>
          let x := cas s (Some k) None in
          if oeqb (fst x) (Some k) then Some (say (setE (snd x) CRet) (Ran k))
          else match fst x with Some l => Some (setE (snd x) (ELoop l)) | None => None end
      end
  | ELoop k =>
      match getNext s k with
      | None => None                                 (* null pointer *)
      | Some n => match getNext s n with
                  | None => Some (setE s (ELast k))
                  | Some _ => Some (setE s (ELoop n))
                  end
      end
  | ELast k =>
      match getNext s k with
      | None => None                                 (* null pointer *)
      | Some z => Some (say (setE (setNext s k None) E0) (Ran z))
      end
  | RLoop None => Some (setE s CRet)
  | RLoop (Some k) => Some (say (setE s (RLoop (getNext s k))) (Rejected k))
  end.

(** one step of the thread that queues m, or of the server *)
Inductive act := P (m : nat) | Srv (reject : bool).
Definition step (a : act) (s : st) : option st :=
  match a with
  | P m => match nth_error (prod s) m with Some p => stepP m p s | None => None end
  | Srv r => stepC r s
  end.
Fixpoint run (l : list act) (s : st) : st :=
  match l with
  | [] => s
  | a :: l' => run l' (match step a s with Some s' => s' | None => s end)
  end.

(** thread.h:241-256: Thread::sleep calls the virtual function impSleep of the current
    thread, here of the class Thread ([apc] false) or APCThread; linux/thread.cpp:407-411
    and apcthread.cpp:32-38; [sys] is the result of the wait of the sleeper *)
Fixpoint sleep (fuel : nat) (apc sys : bool) : outcome bool :=
  match fuel with
  | O => NoFuel
  | S f => impSleep f apc sys
  end
with impSleep (fuel : nat) (apc sys : bool) : outcome bool :=
  match fuel with
  | O => NoFuel
  | S f => if apc then let! x := sleep f apc sys in Ok x else Ok sys
  end.
