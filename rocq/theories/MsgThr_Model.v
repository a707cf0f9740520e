(** Model of the automatic start of message threads: several calls of
    MsgThreadBase::notify, /repo/src/lightspeed/mt/msgthread.cpp:19-40.
    A step is one access of the shared state.  Thread::start either fails (throws)
    or makes the thread running at once; what the thread does, and wakeUp (line 22), do
    not change the state considered here. *)
From Verif Require Import Common MsgThr_Spec.

(** where a call is: before line 21; 27; 28; 30; 37; 38; 22; after; 32; 33; 34 *)
Inductive pc := PTest | PTry | PIn | PStart | PUnlock | PMan | PWake | PRet | PFail | PFailUnlock | PThrew.
Definition look (p : pc) : seen :=
  match p with PTest => Waiting | PRet => Returned | PThrew => Threw | _ => Running end.

(** msgthread.h:30-31, whether the thread is running, and how many times it was started *)
Record st := mkSt { man : bool; lock : bool; running : bool; starts : nat; pcs : list pc }.
(** msgthread.cpp:7; [n] calls *)
Definition init (n : nat) : st := mkSt false false false 0 (repeat PTest n).

Definition goto (s : st) (i : nat) (p : pc) : st := mkSt (man s) (lock s) (running s) (starts s) (upd (pcs s) i p).
Definition setMan (s : st) : st := mkSt true (lock s) (running s) (starts s) (pcs s).
Definition setLock (s : st) (b : bool) : st := mkSt (man s) b (running s) (starts s) (pcs s).

(** one step of call [i]; msgthread.cpp:19-40 *)
Definition stepP (i : nat) (ok : bool) (p : pc) (s : st) : st :=
  match p with
  | PTest => goto s i (if man s then PWake else PTry)
  | PTry => if lock s then goto s i PWake else goto (setLock s true) i PIn
  | PIn => goto s i (if running s then PUnlock else PStart)
  | PStart => if ok then goto (mkSt (man s) (lock s) true (S (starts s)) (pcs s)) i PUnlock else goto s i PFail
  | PUnlock => goto (setLock s false) i PMan
  | PMan => goto (setMan s) i PWake
  | PWake => goto s i PRet
  | PRet => s
  | PFail => goto (setMan s) i PFailUnlock
  | PFailUnlock => goto (setLock s false) i PThrew
  | PThrew => s
  end.
Definition step (e : event) (s : st) : st :=
  match e with
  | P i ok => match nth_error (pcs s) i with Some p => stepP i ok p s | None => s end
  | Stop => mkSt (man s) (lock s) false (starts s) (pcs s)
  end.
Definition run (l : list event) (s : st) : st := fold_left (fun s e => step e s) l s.
