(** Model of the parallel executor (src/lightspeed/base/actions/parallelExecutor.cpp and .h):
    one caller inside execute or stopAll (both hold executeLock), any number of workers.

    Each access to a shared variable is one step.  Simplified: the counter of idle workers and
    the hooks are left out; the waiting point is a stack of workers whose operations are
    atomic (syncPt.cpp:27-148 is treated in SyncPt_Model); waking the caller is atomic; time is
    a free choice of the schedule; the finish flags of stopAll are set for all workers at once;
    the test and the compare-and-exchange of lines 301-303 are one step; max threads is fixed. *)
From Coq Require Import ZArith Lia.
From Verif Require Import Common.
Import ListNotations.
Local Open Scope Z_scope.

(** settings: most threads, waiting for a worker without limit, idle workers never end
    (parallelExecutor.h:165-168) *)
Record conf := mkConf { maxT : Z; waitInf : bool; idleInf : bool }.

(** how a worker got its action: in the usual way or behind its idle timeout (276-284) *)
Inductive how := Plain | Again.
(** where a worker is in Worker::run (parallelExecutor.cpp:220-311) *)
Inductive wpc :=
| Top                          (* 226: the condition of the loop *)
| Take                         (* 228: take the action *)
| Add                          (* 237: register at the waiting point *)
| Take2 (ntfd : bool)          (* 241: take again; was the slot notified *)
| Rem (a : nat)                (* 247: leave the waiting point *)
| Asleep                       (* 260: wait, slot registered *)
| Woken                        (* 260: slot notified *)
| Dec                          (* 265: count down *)
| Take3                        (* 267: take once more *)
| Inc (a : nat)                (* 278: count up *)
| Clone (h : how) (a : nat)    (* 196-202: copy the action of the caller *)
| Notify (h : how) (a : nat)   (* 205: wake the caller *)
| Work (h : how) (a : nat)     (* 209: execute the action *)
| End                          (* 301-306 *)
| Quit                         (* 301-306 after 288: the loop ends anyway *)
| Dead.                        (* 311 *)
(** where the caller is (109-191, 313-325); [ct]: a new thread may still be started,
    [inf]: waiting for a worker that has taken the action *)
Inductive cpc :=
| Idle
| SetNtf (a : nat)                       (* 118 *)
| SetAct (a : nat)                       (* 120 *)
| Wake (a : nat)                         (* 135 *)
| Loop (a : nat) (ct inf : bool)         (* 146-170 *)
| Check (a : nat) (ct inf : bool)        (* 174 *)
| CountA (a : nat)                       (* 378, called from 150 *)
| CountB (a : nat)                       (* 378, called from 176 *)
| Sleep (a : nat) (ct inf : bool)        (* 183 *)
| StopNotify                             (* 319 *)
| StopFinish                             (* 321: finish *)
| StopJoin.                              (* 320-323: until all are dead *)

(** parallelExecutor.h:169-182; [ntf] is the notifier of the caller, [fin] says that the workers
    were asked to finish, [ran] has the executed actions, [done] the results of execute *)
Record st := mkSt {
  act : option nat; ntf : option bool; slots : list nat; cur : Z; stop : bool; fin : bool;
  ws : list wpc; call : cpc; next : nat; ran : list nat; done : list (nat * bool) }.
Definition setAct x s := mkSt x (ntf s) (slots s) (cur s) (stop s) (fin s) (ws s) (call s) (next s) (ran s) (done s).
Definition setNtf x s := mkSt (act s) x (slots s) (cur s) (stop s) (fin s) (ws s) (call s) (next s) (ran s) (done s).
Definition setSlots x s := mkSt (act s) (ntf s) x (cur s) (stop s) (fin s) (ws s) (call s) (next s) (ran s) (done s).
Definition setCur x s := mkSt (act s) (ntf s) (slots s) x (stop s) (fin s) (ws s) (call s) (next s) (ran s) (done s).
Definition setStop x s := mkSt (act s) (ntf s) (slots s) (cur s) x (fin s) (ws s) (call s) (next s) (ran s) (done s).
Definition setFin x s := mkSt (act s) (ntf s) (slots s) (cur s) (stop s) x (ws s) (call s) (next s) (ran s) (done s).
Definition setWs x s := mkSt (act s) (ntf s) (slots s) (cur s) (stop s) (fin s) x (call s) (next s) (ran s) (done s).
Definition setCall x s := mkSt (act s) (ntf s) (slots s) (cur s) (stop s) (fin s) (ws s) x (next s) (ran s) (done s).
Definition setNext x s := mkSt (act s) (ntf s) (slots s) (cur s) (stop s) (fin s) (ws s) (call s) x (ran s) (done s).
Definition setRan x s := mkSt (act s) (ntf s) (slots s) (cur s) (stop s) (fin s) (ws s) (call s) (next s) x (done s).
Definition setDone x s := mkSt (act s) (ntf s) (slots s) (cur s) (stop s) (fin s) (ws s) (call s) (next s) (ran s) x.
Definition setPc (w : nat) (p : wpc) (s : st) : st := setWs (upd (ws s) w p) s.

(** parallelExecutor.cpp:20-34 *)
Definition init : st := mkSt None None [] 0 false false [] Idle 0 [] [].

(** a slot is notified *)
Definition notify (p : wpc) : wpc :=
  match p with Asleep => Woken | Take2 _ => Take2 true | p => p end.
(** the action a caller has given and waits for: its pointer is valid only then *)
Definition valid (a : nat) (c : cpc) : bool :=
  match c with
  | Wake b | Loop b _ _ | Check b _ _ | CountA b | CountB b | Sleep b _ _ => Nat.eqb a b
  | _ => false
  end.
Definition isDead (p : wpc) : bool := match p with Dead => true | _ => false end.

(** one step of worker [w]; [b]: the idle timeout is over or the wait is interrupted
    (parallelExecutor.cpp:193-311) *)
Definition wstep (k : conf) (w : nat) (b : bool) (s : st) : outcome st :=
  match nth_error (ws s) w with
  | None => Ok s
  | Some p =>
    match p with
    | Top => Ok (setPc w (if fin s || stop s then Dead else Take) s)
    | Take =>
        match act s with
        | Some a => Ok (setPc w (Clone Plain a) (setAct None s))
        | None => Ok (setPc w Add s)
        end
    | Add => Ok (setPc w (Take2 false) (setSlots (w :: slots s) s))
    | Take2 n =>
        match act s with
        | Some a => Ok (setPc w (Rem a) (setAct None s))
        | None => Ok (setPc w (if n then Woken else Asleep) s)
        end
    | Rem a => Ok (setPc w (Clone Plain a) (setSlots (remove Nat.eq_dec w (slots s)) s))
    | Asleep =>
        if b && (negb (idleInf k) || fin s)
        then Ok (setPc w Dec (setSlots (remove Nat.eq_dec w (slots s)) s))
        else Ok s
    | Woken => Ok (setPc w End s)
    | Dec => Ok (setPc w Take3 (setCur (cur s - 1) s))
    | Take3 =>
        match act s with
        | Some a => Ok (setPc w (Inc a) (setAct None s))
        | None => Ok (setPc w Quit s)
        end
    | Inc a => Ok (setPc w (Clone Again a) (setCur (cur s + 1) s))
    | Clone h a => if valid a (call s) then Ok (setPc w (Notify h a) s) else Undef
    | Notify h a =>
        match ntf s with
        | Some _ => Ok (setPc w (Work h a) (setNtf (Some true) s))
        | None => Undef
        end
    | Work h a => Ok (setPc w End (setRan (a :: ran s) s))
    | End =>
        if maxT k <? cur s then Ok (setPc w Dead (setCur (cur s - 1) s)) else Ok (setPc w Top s)
    | Quit =>
        if maxT k <? cur s then Ok (setPc w Dead (setCur (cur s - 1) s)) else Ok (setPc w Dead s)
    | Dead => Ok s
    end
  end.

(** parallelExecutor.cpp:373-380: the counter is cast to an unsigned number *)
Definition canStart (k : conf) (s : st) : bool := (0 <=? cur s) && (cur s <? maxT k).
(** end of execute; [r]: the action was taken over, else TimeoutException *)
Definition leave (a : nat) (r : bool) (s : st) : st :=
  setCall Idle (setNtf None (setDone ((a, r) :: done s) s)).
(** one step of the caller inside execute or stopAll; [b]: the timeout it waits for is over *)
Definition cstep (k : conf) (b : bool) (s : st) : outcome st :=
  match call s with
  | Idle => Ok s
  | SetNtf a => Ok (setCall (SetAct a) (setNtf (Some false) s))
  | SetAct a => Ok (setCall (Wake a) (setAct (Some a) s))
  | Wake a =>
      match slots s with
      | w :: l =>
          let s := setSlots l s in
          let s := match nth_error (ws s) w with Some p => setPc w (notify p) s | None => s end in
          Ok (setCall (Loop a false false) s)
      | [] => Ok (setCall (Loop a true false) s)
      end
  | Loop a ct inf =>
      if ct then
        if b then
          if canStart k s then Ok (setCall (CountA a) (setWs (ws s ++ [Top]) s))
          else Ok (setCall (Check a false false) s)
        else Ok (setCall (Check a ct inf) s)
      else if b && negb (waitInf k) && negb inf then
        match act s with
        | None => Ok (setCall (Check a ct true) s)
        | Some _ => Ok (leave a false (setAct None s))
        end
      else Ok (setCall (Check a ct inf) s)
  | CountA a => Ok (setCall (Check a false false) (setCur (cur s + 1) s))
  | Check a ct inf =>
      if forallb isDead (ws s) || (cur s =? 0) then
        if canStart k s then Ok (setCall (CountB a) (setWs (ws s ++ [Top]) s))
        else Ok (setCall (Sleep a false false) s)
      else Ok (setCall (Sleep a ct inf) s)
  | CountB a => Ok (setCall (Sleep a false false) (setCur (cur s + 1) s))
  | Sleep a ct inf =>
      match ntf s with
      | Some true => Ok (leave a true s)
      | _ => if b then Ok (setCall (Loop a ct inf) s) else Ok s
      end
  | StopNotify => Ok (setCall StopFinish (setSlots [] (setWs (map notify (ws s)) s)))
  | StopFinish => Ok (setCall StopJoin (setFin true s))
  | StopJoin => if forallb isDead (ws s) then Ok (setCall Idle (setFin false s)) else Ok s
  end.

(** what the schedule chooses: the next call of execute or stopAll (ignored while another one is
    in progress), or who makes the next step *)
Inductive ev := Exec | Stop | Call (b : bool) | Wrk (w : nat) (b : bool).
Definition step (k : conf) (e : ev) (s : st) : outcome st :=
  match e with
  | Exec => match call s with
            | Idle => Ok (setCall (SetNtf (next s)) (setNext (S (next s)) (setStop false s)))
            | _ => Ok s end
  | Stop => match call s with Idle => Ok (setCall StopNotify (setStop true s)) | _ => Ok s end
  | Call b => cstep k b s
  | Wrk w b => wstep k w b s
  end.
Fixpoint run (k : conf) (l : list ev) (s : st) : outcome st :=
  match l with [] => Ok s | e :: l => let! s := step k e s in run k l s end.
