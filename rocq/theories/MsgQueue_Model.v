(** Model of the message queue: base/actions/msgQueue.h and msgQueue.cpp.

    Any number of threads post messages, one worker thread pumps.  The steps of different threads
    interleave at every read of a shared pointer, every compare-exchange and every change of the
    counter.  The two linked lists are lists of the numbers of messages; a list is compared by its head, as the
    pointers are.  A pointer that was read may be old, the compare-exchange compares it with the head of
    that moment.  Every message is posted once (posting a message again while it waits: see MsgTwice_Model.v);
    the walks through the part of the queue behind the head are one step, as only the worker
    changes the pointers there.  The memory model is sequentially consistent. *)
From Coq Require Import ZArith.
From Verif Require Import Common MsgQueue_Spec.
Open Scope nat_scope.

(** msgQueue.h:102-246, msgQueue.cpp:328-378: what run() of a message does.  [Plain] is any message that does
    not touch the queue in run (also NotifyMsg: sync, wait for the current message), [Cancel] is
    CancelMsg and CancelMsgAsync. *)
Inductive kind := Plain | Flush | Cancel (t : nat) | Finish.

(** Where a call of postMessage or postPriorityMessage is (msgQueue.cpp:114-148): [CRead]: before the read of
    the top of the list (120 and 127, 141 and 144); [CCas h]: before the compare-exchange,
    [h] was read (122, 142); [CInc]: the message is in, the counter was not incremented (130, 146);
    [CEnd]: the call has ended. *)
Inductive cpc := CRead | CCas (h : option nat) | CInc | CEnd.
Record msg := mkMsg { kd : kind; prio : bool; cp : cpc }.

(** Who called getNextMsg: pumpMessage (185-192) or wtFlush (306-314), where [m] is the message that
    flushes and [o] is the message which variable m of wtFlush holds *)
Inductive ctx := Pump | Fl (m : nat) (o : option nat).
(** Who called prepareQueue: getNextMsg (158), wtFlush (308), wtCancelMessage (224) *)
Inductive pk := KGet (c : ctx) | KFl (m : nat) | KCan (m t : nat).

(** Where the worker is.
    getNextMsg (154-175): [G0]: before 158; [G1]: before 160; [G2 m]: before the compare-exchange, m was
    read; [G3 m]: before the decrement (171).
    prepareQueue (64-92): [P0]: before the read of newMessages (67, 71); [P1 p]: before the compare-exchange (69);
    appendQueue (93-113): [P2 l]: before the compare-exchange (97), [l] is the reversed list; [P3 l]: after it failed.
    wtCancelMessage (221-257): [C1]: before 228; [C2]: the head is the message, before the
    compare-exchange (230); [C3]: the message was removed and rejected, before done (233-234, 249-250).
    [Run m]: before run() of [m] (189); [Fin m]: before the destructor of m (192), which calls done(). *)
Inductive wpc := Idle | G0 (c : ctx) | G1 (c : ctx) | G2 (c : ctx) (m : nat) | G3 (c : ctx) (m : nat)
| P0 (k : pk) | P1 (k : pk) (p : option nat) | P2 (k : pk) (l : list nat) | P3 (k : pk) (l : list nat)
| C1 (m t : nat) | C2 (m t : nat) | C3 (m t : nat) | Run (m : nat) | Fin (m : nat).

(** msgQueue.h:441-474.  [fin] is the finish flag of the worker thread (Thread::finish). *)
Record st := mkSt { msgs : list msg; new : list nat; cur : list nat; qlen : Z; fin : bool; pc : wpc; hist : list ev }.
Definition init : st := mkSt [] [] [] 0 false Idle [].

Definition sameh (a b : option nat) : bool :=
  match a, b with None, None => true | Some x, Some y => x =? y | _, _ => false end.

(** A step of the call that posts message [i]: msgQueue.cpp:114-148. *)
Definition cstep (i : nat) (s : st) : option st :=
  match nth_error (msgs s) i with
  | None => None
  | Some m =>
      let top := if prio m then cur s else new s in
      match cp m with
      | CRead => Some (mkSt (upd (msgs s) i (mkMsg (kd m) (prio m) (CCas (hd_error top)))) (new s) (cur s) (qlen s) (fin s) (pc s) (hist s))
      | CCas h =>
          if sameh (hd_error top) h then
            Some (mkSt (upd (msgs s) i (mkMsg (kd m) (prio m) CInc)) (if prio m then new s else i :: new s)
                       (if prio m then i :: cur s else cur s) (qlen s) (fin s) (pc s) (Push i (prio m) :: hist s))
          else Some (mkSt (upd (msgs s) i (mkMsg (kd m) (prio m) CRead)) (new s) (cur s) (qlen s) (fin s) (pc s) (hist s))
      | CInc => Some (mkSt (upd (msgs s) i (mkMsg (kd m) (prio m) CEnd)) (new s) (cur s) (qlen s + 1)%Z (fin s) (pc s) (hist s))
      | CEnd => None
      end
  end.

Definition at_ (s : st) (p : wpc) (h : list ev) : st := mkSt (msgs s) (new s) (cur s) (qlen s) (fin s) p h.

(** where prepareQueue returns to *)
Definition after_prep (k : pk) : wpc :=
  match k with KGet c => G1 c | KFl m => G0 (Fl m None) | KCan m t => C1 m t end.
Definition done_opt (o : option nat) (h : list ev) : list ev := match o with Some x => Done x :: h | None => h end.

(** A step of the worker: msgQueue.cpp:64-113, 154-175, 185-192, 221-257, 306-314 and the run functions of the
    messages (328-378). *)
Definition wstep (s : st) : st :=
  match pc s with
  | Idle => at_ s (G0 Pump) (hist s)
  | G0 c => at_ s (match cur s with [] => P0 (KGet c) | _ => G1 c end) (hist s)
  | G1 c =>
      match cur s, c with
      | m :: _, _ => at_ s (G2 c m) (hist s)
      | [], Pump => at_ s Idle (hist s)
      | [], Fl m o => at_ s (Fin m) (done_opt o (hist s))
      end
  | G2 c m =>
      if sameh (hd_error (cur s)) (Some m) then
        mkSt (msgs s) (new s) (tl (cur s)) (qlen s) (fin s) (G3 c m) (Take m :: hist s)
      else at_ s (match cur s with m' :: _ => G2 c m' | [] => G1 c end) (hist s)
  | G3 c m =>
      match c with
      | Pump => mkSt (msgs s) (new s) (cur s) (qlen s - 1)%Z (fin s) (Run m) (hist s)
      | Fl f o => mkSt (msgs s) (new s) (cur s) (qlen s - 1)%Z (fin s) (G0 (Fl f (Some m))) (Flushed m :: done_opt o (hist s))
      end
  | P0 k => at_ s (P1 k (hd_error (new s))) (hist s)
  | P1 k p =>
      if sameh (hd_error (new s)) p then mkSt (msgs s) [] (cur s) (qlen s) (fin s) (P2 k (rev (new s))) (hist s)
      else at_ s (P0 k) (hist s)
  | P2 k l =>
      match cur s with
      | [] => mkSt (msgs s) (new s) l (qlen s) (fin s) (after_prep k) (hist s)
      | _ => at_ s (P3 k l) (hist s)
      end
  | P3 k l => mkSt (msgs s) (new s) (cur s ++ l) (qlen s) (fin s) (after_prep k) (hist s)
  | C1 m t =>
      match cur s with
      | [] => at_ s (Fin m) (hist s)
      | p :: r =>
          if p =? t then at_ s (C2 m t) (hist s)
          else if existsb (Nat.eqb t) r
            then mkSt (msgs s) (new s) (p :: remove Nat.eq_dec t r) (qlen s) (fin s) (C3 m t) (Cancelled t :: hist s)
            else at_ s (Fin m) (hist s)
      end
  | C2 m t =>
      if sameh (hd_error (cur s)) (Some t)
        then mkSt (msgs s) (new s) (tl (cur s)) (qlen s) (fin s) (C3 m t) (Cancelled t :: hist s)
        else at_ s (C1 m t) (hist s)
  | C3 m t => mkSt (msgs s) (new s) (cur s) (qlen s - 1)%Z (fin s) (Fin m) (Done t :: hist s)
  | Run m =>
      let h := Ran m :: hist s in
      match option_map kd (nth_error (msgs s) m) with
      | Some Flush => at_ s (P0 (KFl m)) h
      | Some Finish => mkSt (msgs s) (new s) (cur s) (qlen s) true (P0 (KFl m)) h
      | Some (Cancel t) => at_ s (P0 (KCan m t)) h
      | _ => at_ s (Fin m) h
      end
  | Fin m => at_ s Idle (Done m :: hist s)
  end.

(** A thread calls postMessage ([pr] = false) or postPriorityMessage; the poster of message [i] makes a step; the
    worker makes a step. *)
Inductive act := Post (k : kind) (pr : bool) | Client (i : nat) | Work.
Definition step (a : act) (s : st) : option st :=
  match a with
  | Post k pr => Some (mkSt (msgs s ++ [mkMsg k pr CRead]) (new s) (cur s) (qlen s) (fin s) (pc s) (hist s))
  | Client i => cstep i s
  | Work => Some (wstep s)
  end.
Fixpoint run (l : list act) (s : st) : option st :=
  match l with [] => Some s | a :: t => match step a s with Some s' => run t s' | None => None end end.

(** msgQueue.h:439: length() gives the counter as an unsigned number *)
Definition length_ (s : st) : Z := (qlen s mod 2 ^ 64)%Z.
(** msgQueue.h:389 *)
Definition isRunning (s : st) : bool := (0 <? qlen s)%Z.
(** msgQueue.cpp:260-262 *)
Definition empty (s : st) : bool := match new s, cur s with [], [] => true | _, _ => false end.
