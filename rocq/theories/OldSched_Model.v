(** Model of the old scheduler: base/actions/schedulerOld.cpp and schedulerOld.h, which extends the message queue
    (msgQueue.cpp).

    Posting is one step here (the steps of postMessage are in MsgQueue_Model.v); posts and the clock interleave
    with the steps of the worker at every access to the shared lists and the clock.  The clock is a
    mathematical integer, the code sees it, and the times of the events, modulo 2^64. *)
From Coq Require Import ZArith.
From Verif Require Import Common OldSched_Spec.
Open Scope Z_scope.

(** (integer)(a - b) for 64-bit numbers: schedulerOld.cpp:95, 104, 173 *)
Definition rel (t now : Z) : Z :=
  let d := (t mod 2 ^ 64 - now mod 2 ^ 64) mod 2 ^ 64 in if d <? 2 ^ 63 then d else d - 2 ^ 64.
(** schedulerOld.cpp:88-105: the number a message is compared by *)
Definition relm (c : Z) (m : tmsg) : Z := match due m with Some t => rel t c | None => 0 end.
(** schedulerOld.cpp:113-151: mergeSort; a list that has ended is greater (77-85), of equal messages that of
    [b] goes first *)
Fixpoint merge (c : Z) (a : list tmsg) : list tmsg -> list tmsg :=
  fix mb (b : list tmsg) : list tmsg :=
    match a, b with
    | [], _ => b
    | _, [] => a
    | x :: a', y :: b' => if relm c x <? relm c y then x :: merge c a' b else y :: mb b'
    end.
(** schedulerOld.cpp:63-71: one pass over the slots *)
Fixpoint pass (c : Z) (l : list (list tmsg)) : list (list tmsg) :=
  match l with
  | a :: b :: t => merge c a b :: pass c t
  | _ => l
  end.
(** schedulerOld.cpp:37-75: sortList; [fuel] bounds the number of passes *)
Fixpoint passes (fuel : nat) (c : Z) (l : list (list tmsg)) : outcome (list tmsg) :=
  match l with
  | [] => Ok []
  | [a] => Ok a
  | _ => match fuel with O => NoFuel | S f => passes f c (pass c l) end
  end.
Definition sortList (c : Z) (l : list tmsg) : outcome (list tmsg) := passes (length l) c (map (fun m => [m]) l).

(** Where the worker is in pumpMessage (153-163).  [S0 k]: at the beginning of prepareQueue (10); [k] says that it was
    called by getWaitTime (186), not by the loop (161).  [S1 k c]: the clock was read, before the new
    messages are taken (12-17).  [S2 k c l]: they are sorted, before the queue is detached (25-28).  [S3 k l]: the lists are
    merged, before appendQueue (34).  [S4]: before getWaitTime const (167).  [S5]: it gave 0, before
    getNextMsg (157).  [S6]: it gave something else, before newMessages is read (158). *)
Inductive spc := Idle | S0 (k : bool) | S1 (k : bool) (c : Z) | S2 (k : bool) (c : Z) (l : list tmsg) | S3 (k : bool) (l : list tmsg) | S4 | S5 | S6.
(** [mark]: the number of messages posted before pumpMessage was called; [ran]: the messages that were run, with the time when,
    newest first; [nid] numbers the messages. *)
Record st := mkSt { new : list tmsg; cur : list tmsg; now : Z; pc : spc; nid : nat; mark : nat; ran : list (tmsg * Z) }.
Definition init : st := mkSt [] [] 0 Idle 0 0 [].

(** schedulerOld.cpp:165-181: getWaitTime *)
Definition waitTime (now : Z) (l : list tmsg) : option Z :=
  match l with
  | [] => None
  | m :: _ => match due m with Some t => let r := rel t now in Some (if r <? 0 then 0 else r) | None => Some 0 end
  end.
Definition goto (s : st) (p : spc) : st := mkSt (new s) (cur s) (now s) p (nid s) (mark s) (ran s).
Definition next (k : bool) : spc := if k then S4 else S0 true.

(** A step of the worker.  [None]: the fuel of sortList did not suffice. *)
Definition wstep (s : st) : option st :=
  match pc s with
  | Idle => Some (mkSt (new s) (cur s) (now s) (S0 true) (nid s) (nid s) (ran s))
  | S0 k => Some (goto s (S1 k (now s)))
  | S1 k c =>
      match new s with
      | [] => Some (goto s (next k))
      | l => match sortList c l with
             | Ok p => Some (mkSt [] (cur s) (now s) (S2 k c p) (nid s) (mark s) (ran s))
             | _ => None
             end
      end
  | S2 k c p => Some (mkSt (new s) [] (now s) (S3 k (merge c p (cur s))) (nid s) (mark s) (ran s))
  | S3 k l => Some (mkSt (new s) (cur s ++ l) (now s) (next k) (nid s) (mark s) (ran s))
  | S4 => Some (goto s (match waitTime (now s) (cur s) with Some 0 => S5 | _ => S6 end))
  | S5 =>
      match cur s with
      | m :: r => Some (mkSt (new s) r (now s) Idle (nid s) (mark s) ((m, now s) :: ran s))
      | [] => Some (goto s Idle)
      end
  | S6 => Some (goto s (match new s with [] => Idle | _ => S0 false end))
  end.

(** A message is posted (postMessage or schedule, 202-206: [t] is its time if it is an event); a priority message without a
    time is posted (msgQueue.cpp:136-148); the clock advances; the worker makes a step. *)
Inductive act := Post (t : option Z) | Prio | Tick (d : N) | Work.
Definition step (a : act) (s : st) : option st :=
  match a with
  | Post t => Some (mkSt (mkT (nid s) t :: new s) (cur s) (now s) (pc s) (S (nid s)) (mark s) (ran s))
  | Prio => Some (mkSt (new s) (mkT (nid s) None :: cur s) (now s) (pc s) (S (nid s)) (mark s) (ran s))
  | Tick d => Some (mkSt (new s) (cur s) (now s + Z.of_N d) (pc s) (nid s) (mark s) (ran s))
  | Work => wstep s
  end.
Fixpoint run (l : list act) (s : st) : option st :=
  match l with [] => Some s | a :: t => match step a s with Some s' => run t s' | None => None end end.

(** the messages in the hands of the worker *)
Definition held (s : st) : list tmsg := match pc s with S2 _ _ l | S3 _ l => l | _ => [] end.
(** the clock value that the worker uses *)
Definition clock (s : st) : Z := match pc s with S1 _ c | S2 _ c _ => c | _ => now s end.
(** Events so far away that 64-bit differences of times overflow are excluded: every waiting event is less than 2^63
    units away from the current time (and from the last clock value read by the worker), at every moment of the run. *)
Definition near (s : st) : Prop :=
  forall m t, In m (cur s ++ held s ++ new s) -> due m = Some t -> - 2 ^ 63 <= t - now s /\ t - clock s < 2 ^ 63.
Fixpoint tame (l : list act) (s : st) : Prop :=
  near s /\ match l with [] => True | a :: t => match step a s with Some s' => tame t s' | None => False end end.
