(** What users of fibers rely on (fiber.h:26-207).  Fiber 0 is the master.  Histories are lists of events, newest first. *)
From Verif Require Import Common.

Inductive ev :=
| EStart (a f : nat)            (* fiber a starts fiber f *)
| EWake (a f r : nat)           (* a wakes f with reason r; control goes to f *)
| EWakeNo (a f : nat)           (* wakeUp returns at once *)
| EStop (a f : nat)             (* a calls stop of the active fiber f (a wake-up follows) *)
| ESleep (a b : nat)            (* a sleeps; control goes to b *)
| ENoSleep (a : nat) (r : option nat) (* sleep returns at once *)
| ERet (f : nat) (r : option nat) (* sleep called by f returns r ([None]: a value nobody has passed) *)
| EStopped (f : nat)            (* the stop exception is thrown in f *)
| EExit (f : nat) (bad : bool)  (* the function of f ends, bad: with an exception *)
| EFree (f : nat)               (* the context and the stack of f are freed *)
| ECur (f : nat)                (* Fiber::current() returns f *)
| ECheck (f : nat) (b : bool)   (* checkState of f returns b *)
| ECheckExc (f : nat)           (* checkState of f throws the exception of f *)
| EGone (f : nat).              (* the destructor of f has ended *)

(** the fiber that has control *)
Fixpoint ctrl (h : list ev) : nat :=
  match h with
  | [] => 0
  | EStart _ f :: _ | EWake _ f _ :: _ | ESleep _ f :: _ => f
  | EExit _ _ :: _ => 0
  | _ :: h => ctrl h
  end.
Fixpoint active (h : list ev) (f : nat) : bool :=
  match h with
  | [] => Nat.eqb f 0
  | EStart _ g :: h => Nat.eqb g f || active h f
  | EExit g _ :: h => negb (Nat.eqb g f) && active h f
  | _ :: h => active h f
  end.
(** the fiber that caused the last resume of f *)
Fixpoint callerOf (h : list ev) (f : nat) : option nat :=
  match h with
  | [] => None
  | EStart a g :: h | EWake a g _ :: h => if Nat.eqb g f then Some a else callerOf h f
  | _ :: h => callerOf h f
  end.
(** the reason sent by the last wakeUp of f *)
Fixpoint reasonOf (h : list ev) (f : nat) : nat :=
  match h with
  | [] => 0
  | EWake _ g r :: h => if Nat.eqb g f then r else reasonOf h f
  | EStart _ g :: h => if Nat.eqb g f then 0 else reasonOf h f
  | _ :: h => reasonOf h f
  end.
Fixpoint stopReq (h : list ev) (f : nat) : bool :=
  match h with
  | [] => false
  | EStop _ g :: h => Nat.eqb g f || stopReq h f
  | EStart _ g :: h => negb (Nat.eqb g f) && stopReq h f
  | _ :: h => stopReq h f
  end.
(** f has ended with an exception that has not been reported *)
Fixpoint failed (h : list ev) (f : nat) : bool :=
  match h with
  | [] => false
  | EExit g bad :: h => Nat.eqb g f && bad || failed h f
  | ECheckExc g :: h => negb (Nat.eqb g f) && failed h f
  | _ :: h => failed h f
  end.
Definition sleepsTo (h : list ev) (a : nat) : nat :=
  match callerOf h a with Some b => if active h b then b else 0 | None => 0 end.
Fixpoint nExit (h : list ev) (f : nat) : nat :=
  match h with [] => 0 | EExit g _ :: h => (if Nat.eqb g f then 1 else 0) + nExit h f | _ :: h => nExit h f end.
Fixpoint nFree (h : list ev) (f : nat) : nat :=
  match h with [] => 0 | EFree g :: h => (if Nat.eqb g f then 1 else 0) + nFree h f | _ :: h => nFree h f end.

Definition allowed (h : list ev) (e : ev) : Prop :=
  match e with
  | EStart a f => ctrl h = a /\ active h f = false
  | EWake a f _ => ctrl h = a /\ active h f = true /\ f <> a
  | EWakeNo a f => ctrl h = a /\ (active h f = false \/ f = a)
  | EStop a f => ctrl h = a /\ active h f = true
  | ESleep a b => ctrl h = a /\ b = sleepsTo h a /\ a <> b
  | ENoSleep a r => ctrl h = a /\ sleepsTo h a = a /\ r = Some (reasonOf h a)
  | ERet f r => ctrl h = f /\ stopReq h f = false /\ r = Some (reasonOf h f)
  | EStopped f => ctrl h = f /\ stopReq h f = true
  | EExit f _ => ctrl h = f /\ f <> 0
  | EFree f => (nFree h f < nExit h f)%nat
  | ECur f => ctrl h = f
  | ECheck f b => b = active h f /\ (failed h f = true -> ctrl h <> 0)
  | ECheckExc f => ctrl h = 0 /\ failed h f = true
  | EGone f => active h f = false
  end.
Fixpoint valid (h : list ev) : Prop := match h with [] => True | e :: h => allowed h e /\ valid h end.

(** f has called sleep, which has neither returned nor thrown *)
Fixpoint sleeping (h : list ev) (f : nat) : bool :=
  match h with
  | [] => false
  | ESleep g _ :: h => Nat.eqb g f || sleeping h f
  | ERet g _ :: h | EStopped g :: h | EStart _ g :: h => negb (Nat.eqb g f) && sleeping h f
  | _ :: h => sleeping h f
  end.
(** control has come to a fiber whose sleep must return, or that must be stopped, and this has not happened yet *)
Fixpoint owes (h : list ev) : bool :=
  match h with
  | [] => false
  | EWake _ f _ :: h | ESleep _ f :: h => stopReq h f || sleeping h f
  | EExit _ _ :: h => stopReq h 0 || sleeping h 0
  | EStart _ _ :: _ | ERet _ _ :: _ | EStopped _ :: _ => false
  | _ :: h => owes h
  end.

(** operations of the fiber that has control; OExit: its function ends; unw: an exception is in flight *)
Inductive op := OStart (f : nat) | OWake (f r : nat) | OStop (f : nat) | OSleep | OExit (bad : bool) | OCurrent | OCheck (f : nat) | ODestroy (f : nat) (unw : bool).
(** what each operation does first; what may follow is the end of the sleep of another fiber, its stop, or the freeing of a stack *)
Definition answer (h : list ev) (o : op) : list ev :=
  let c := ctrl h in
  match o with
  | OStart f => if active h f then [] else [EStart c f]
  | OWake f r => if negb (Nat.eqb c f) && active h f then [EWake c f r] else [EWakeNo c f]
  | OStop f => if active h f then (if Nat.eqb c f then [EWakeNo c f; EStop c f] else [EWake c f 0; EStop c f]) else []
  | OSleep => if Nat.eqb c (sleepsTo h c) then [ENoSleep c (Some (reasonOf h c))] else [ESleep c (sleepsTo h c)]
  | OExit bad => if Nat.eqb c 0 then [] else [EExit c bad]
  | OCurrent => [ECur c]
  | OCheck f => if failed h f && Nat.eqb c 0 then [ECheckExc f] else [ECheck f (active h f)]
  | ODestroy _ _ => []
  end.
Definition after (e : ev) : Prop := match e with ERet _ _ | EStopped _ | EFree _ => True | _ => False end.
