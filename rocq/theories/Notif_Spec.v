(** What a thread that sleeps and waits for a notification may expect, as statements about the history of the calls *)
From Verif Require Import Common.

(** calls of other threads: wakeUp(reason) of the notifier, wakeUp(reason) of the thread itself, finish() of the thread *)
Inductive what := ANotify (r : Z) | APoke (r : Z) | AFinish.
(** calls of the thread: wait of the notifier ([timed]: the timeout is not infinite; [exit]: also end for the finish flag), sleep,
    deepSleep, the test of the notifier, its reset and its destruction *)
Inductive call := CWait (timed exit : bool) | CSleep (timed : bool) | CDeep (timed : bool) | CTest | CReset | CDestroy.
(** ends of these calls; [RSleep]: whether the timeout came, and the value stored to the variable for the reason *)
Inductive ret := RWait (b : bool) | RSleep (timedout : bool) (reason : option Z) | RDeep | RTest (b : bool) | RReset | RDestroy.
(** events of a history; [Expired]: the timeout of the running call comes *)
Inductive ev := Start (t : nat) (a : what) | End (t : nat) | Call (c : call) | Expired | Ret (r : ret).
(** histories are lists with the newest event first *)
Notation history := (list ev).

(** a call of wakeUp of the notifier began and ended after the last reset *)
Definition told (l : history) : Prop :=
  exists a b c t r, l = a ++ End t :: b ++ Start t (ANotify r) :: c /\ ~ In (End t) b /\ ~ In (Ret RReset) (a ++ b).
(** some call of wakeUp of the notifier was not over before the last reset *)
Definition maybe_told (l : history) : Prop :=
  exists a c t r, l = a ++ Start t (ANotify r) :: c /\ forall a1 a2, a = a1 ++ Ret RReset :: a2 -> ~ In (End t) a2.
(** a call of finish() began and ended *)
Definition told_finish (l : history) : Prop := exists a b c t, l = a ++ End t :: b ++ Start t AFinish :: c /\ ~ In (End t) b.
Definition asked_finish (l : history) : Prop := exists t, In (Start t AFinish) l.
(** events since the running or just ended call [c] began *)
Definition during (c : call) (a : history) (l : history) : Prop := exists r, l = a ++ Call c :: r /\ forall c', ~ In (Call c') a.
Definition slept (e : ev) : Prop := match e with Ret (RWait _) | Ret (RSleep _ _) | Ret RDeep => True | _ => False end.
(** some other thread called wakeUp or finish() after the last sleep or wait of the thread, and the call ended *)
Definition woken (l : history) : Prop :=
  exists a b c t w, l = a ++ End t :: b ++ Start t w :: c /\ ~ In (End t) b /\ forall e, In e (a ++ b) -> ~ slept e.

(** the rules of the use of a notifier: one notification for each reset, reset and destruction after the signal has been seen,
    no use after the destruction *)
Fixpoint notifies (l : history) : nat := match l with [] => 0 | Start _ (ANotify _) :: r => S (notifies r) | _ :: r => notifies r end.
Fixpoint resets (l : history) : nat := match l with [] => 0 | Ret RReset :: r => S (resets r) | _ :: r => resets r end.
Fixpoint seen (l : history) : Prop :=
  match l with [] => False | Ret RReset :: _ => False | Ret (RWait true) :: _ => True | Ret (RTest true) :: _ => True | _ :: r => seen r end.
Definition destroyed (l : history) : Prop := In (Ret RDestroy) l.
Fixpoint obeys (l : history) : Prop :=
  match l with
  | [] => True
  | e :: r => obeys r /\ match e with
      | Start _ (ANotify _) => notifies r = resets r /\ ~ destroyed r
      | Call CReset | Call CDestroy => seen r /\ ~ destroyed r
      | Call (CWait _ _) | Call CTest => ~ destroyed r
      | _ => True
      end
  end.
(** the reason of the last notification *)
Fixpoint last_reason (l : history) : option Z :=
  match l with [] => None | Start _ (ANotify r) :: _ => Some r | _ :: r => last_reason r end.
