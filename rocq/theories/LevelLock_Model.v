(** Model of LevelLock and of the RW lock built on it:
    /repo/src/lightspeed/mt/rwlock.h:32-256.

    Every member function does its work inside Synchronized<FastLock>
    (rwlock.h:81, 115, 136, 152), so one call is one step here.  A call of lock
    creates one slot on the stack of the calling thread; slots are numbered in
    the order of the calls, and a slot dies when its call ends.  A thread that
    waits may give up by cancelAsync; its two critical sections (lines 115 and
    152) are one step here.  Simplification: the releasing thread reads
    s->notify (line 181) in the same step as it sets signaled (line 179). *)
From Verif Require Import Common.

(** rwlock.h:36-49; [thr] is the thread of [notify]; [live] says whether the
    slot still exists *)
Record slot := mkSlot { snext : option nat; thr : nat; level : Z; signaled : bool; live : bool }.

Inductive lpc := LIdle | LWait (s : nat).

Record lstate := mkL {
  qtop : option nat;           (* rwlock.h:190 *)
  qbot : option nat;
  curLevel : Z;                (* rwlock.h:192 *)
  useCount : nat;              (* rwlock.h:194 *)
  slots : list slot;           (* all the slots ever made *)
  lpcs : nat -> lpc;
  own : list (nat * Z);        (* who has been let in, at which level *)
  parked : list nat;           (* log: slots put to the queue *)
  freed : list nat             (* log: slots released from the queue *)
}.

(** rwlock.h:52 *)
Definition linit : lstate := mkL None None 0 0 [] (fun _ => LIdle) [] [] [].

(** access through a pointer to a slot *)
Definition getSlot (s : lstate) (p : nat) : outcome slot :=
  match nth_error (slots s) p with
  | Some x => if live x then Ok x else Undef
  | None => Undef
  end.

Definition putSlot (s : lstate) (p : nat) (x : slot) : lstate :=
  mkL (qtop s) (qbot s) (curLevel s) (useCount s) (upd (slots s) p x) (lpcs s) (own s) (parked s) (freed s).

Definition setNext (x : slot) n := mkSlot n (thr x) (level x) (signaled x) (live x).
Definition setSignaled (x : slot) := mkSlot (snext x) (thr x) (level x) true (live x).
Definition setDead (x : slot) := mkSlot (snext x) (thr x) (level x) (signaled x) false.

Definition setTop (s : lstate) q :=
  mkL q (qbot s) (curLevel s) (useCount s) (slots s) (lpcs s) (own s) (parked s) (freed s).
Definition setBot (s : lstate) q :=
  mkL (qtop s) q (curLevel s) (useCount s) (slots s) (lpcs s) (own s) (parked s) (freed s).
Definition setPc (s : lstate) (t : nat) p :=
  mkL (qtop s) (qbot s) (curLevel s) (useCount s) (slots s) (fun u => if u =? t then p else lpcs s u)
      (own s) (parked s) (freed s).
Definition newSlot (s : lstate) (x : slot) :=
  mkL (qtop s) (qbot s) (curLevel s) (useCount s) (slots s ++ [x]) (lpcs s) (own s) (parked s) (freed s).
(** thread [t] is let in at level [v] *)
Definition enter (s : lstate) (t : nat) (v : Z) :=
  mkL (qtop s) (qbot s) v (S (useCount s)) (slots s) (lpcs s) ((t, v) :: own s) (parked s) (freed s).
Definition logPark (s : lstate) (p : nat) :=
  mkL (qtop s) (qbot s) (curLevel s) (useCount s) (slots s) (lpcs s) (own s) (parked s ++ [p]) (freed s).
Definition logFree (s : lstate) (p : nat) :=
  mkL (qtop s) (qbot s) (curLevel s) (useCount s) (slots s) (lpcs s) (own s) (parked s) (freed s ++ [p]).

(** the test of lines 84 and 139 *)
Definition mustWait (s : lstate) (v : Z) : bool :=
  match qbot s with
  | Some _ => true
  | None => negb (v =? curLevel s)%Z && negb (useCount s =? 0)
  end.

(** rwlock.h:78-102 *)
Definition lockAsync (s : lstate) (p : nat) : outcome lstate :=
  let! x := getSlot s p in
  if mustWait s (level x) then
    let s := logPark s p in
    match qtop s with
    | None => Ok (setBot (setTop s (Some p)) (Some p))
    | Some _ =>
        match qbot s with
        | None => Undef
        | Some b => let! y := getSlot s b in
                    Ok (setBot (putSlot s b (setNext y (Some p))) (Some p))
        end
    end
  else Ok (enter (putSlot s p (setSignaled x)) (thr x) (level x)).

(** rwlock.h:134-147 *)
Definition tryLock (s : lstate) (t : nat) (v : Z) : lstate :=
  if mustWait s v then s else enter s t v.

(** rwlock.h:168-182; wakeUp of a waiting thread changes nothing here: the
    thread looks at [signaled] *)
Definition releaseTopThread (s : lstate) : outcome lstate :=
  match qtop s with
  | None => Undef
  | Some p =>
      let! x := getSlot s p in
      let s := setTop s (snext x) in
      Ok (logFree (putSlot (enter s (thr x) (level x)) p (setSignaled x)) p)
  end.

(** the loop at rwlock.h:161-163; the fuel is not in the code *)
Fixpoint releaseSame (fuel : nat) (s : lstate) : outcome lstate :=
  match qtop s with
  | None => Ok s
  | Some p =>
      let! x := getSlot s p in
      if (level x =? curLevel s)%Z then
        match fuel with
        | O => NoFuel
        | S f => let! s' := releaseTopThread s in releaseSame f s'
        end
      else Ok s
  end.

Fixpoint dropOne (t : nat) (l : list (nat * Z)) : list (nat * Z) :=
  match l with
  | [] => []
  | a :: l' => if fst a =? t then l' else a :: dropOne t l'
  end.

(** rwlock.h:150-166 by a thread that has been let in *)
Definition unlock (s : lstate) (t : nat) : outcome lstate :=
  let s := mkL (qtop s) (qbot s) (curLevel s) (pred (useCount s)) (slots s) (lpcs s)
               (dropOne t (own s)) (parked s) (freed s) in
  if useCount s =? 0 then
    match qtop s with
    | None => Ok s
    | Some _ => let! s' := releaseTopThread s in releaseSame (length (slots s)) s'
    end
  else Ok s.

(** the loop at rwlock.h:121: the slot before [p], [None] if the end is reached *)
Fixpoint findPrev (fuel : nat) (s : lstate) (q : option nat) (p : nat) : outcome (option nat) :=
  match q with
  | None => Ok None
  | Some a =>
      let! x := getSlot s a in
      match snext x with
      | Some b => if b =? p then Ok (Some a) else
                  match fuel with O => NoFuel | S f => findPrev f s (Some b) p end
      | None => match fuel with O => NoFuel | S f => findPrev f s None p end
      end
  end.

(** rwlock.h:111-131 *)
Definition cancelAsync (s : lstate) (p : nat) : outcome lstate :=
  let! x := getSlot s p in
  if signaled x then unlock s (thr x) else
  match qtop s with
  | Some a => if a =? p then Ok (setTop s (snext x)) else
      let! q := findPrev (length (slots s)) s (qtop s) p in
      match q with
      | None => Undef                                  (* q->next, line 122 *)
      | Some b => let! y := getSlot s b in Ok (putSlot s b (setNext y (snext x)))
      end
  | None => Undef                                      (* q->next, line 122 *)
  end.

Inductive lcmd := LLock (v : Z) | LTry (v : Z) | LUnlock | LCancel.

Definition die (s : lstate) (p : nat) : outcome lstate :=
  let! x := getSlot s p in Ok (putSlot s p (setDead x)).

(** one step of a thread: a call of an idle one, or the test of line 65 (or the
    cancelling) of one that waits; [s] itself if the thread cannot move *)
Definition lexec (tc : nat * lcmd) (s : lstate) : outcome lstate :=
  let (t, c) := tc in
  match lpcs s t with
  | LIdle =>
      match c with
      | LLock v =>
          let p := length (slots s) in
          let! s := lockAsync (newSlot s (mkSlot None t v false true)) p in
          Ok (setPc s t (LWait p))
      | LTry v => Ok (tryLock s t v)
      | LUnlock => if existsb (fun a => fst a =? t) (own s) then unlock s t else Ok s
      | LCancel => Ok s
      end
  | LWait p =>
      let! x := getSlot s p in
      match c with
      | LCancel => let! s := cancelAsync s p in
                   let! s := die s p in Ok (setPc s t LIdle)
      | _ => if signaled x then let! s := die s p in Ok (setPc s t LIdle) else Ok s
      end
  end.

Fixpoint lrun (sched : list (nat * lcmd)) (s : lstate) : outcome lstate :=
  match sched with
  | [] => Ok s
  | tc :: sched' => let! s := lexec tc s in lrun sched' s
  end.

(** rwlock.h:205-231: what a thread of the RW lock does; the identifier of
    thread [t] is [t + 1] *)
Inductive rwcmd := RLockRead | RLockWrite | RTryRead | RTryWrite | RUnlock | RCancel.
Definition rwOf (a : nat * rwcmd) : nat * lcmd :=
  let (t, c) := a in
  (t, match c with
      | RLockRead => LLock 0
      | RLockWrite => LLock (Z.of_nat t + 1)
      | RTryRead => LTry 0
      | RTryWrite => LTry (Z.of_nat t + 1)
      | RUnlock => LUnlock
      | RCancel => LCancel
      end).
