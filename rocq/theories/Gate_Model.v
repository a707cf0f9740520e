(** Model of Gate: /repo/src/lightspeed/mt/gate.h:25-128, on the model of SyncPt.

    One step is one access to the state of the gate or one call of the SyncPt
    below (each works under its queueLock).  A thread that sleeps goes on when
    its slot is notified or when its time is up; the sleeping itself
    (Thread::sleep) is not modelled. *)
From Verif Require Import Common SyncPt_Spec SyncPt_Model.

Inductive gpc :=
| GIdle
| GOpening               (* gate.h:87 comes next *)
| GRead1 (p : nat)       (* gate.h:101 *)
| GSelf (p : nat)        (* gate.h:102 *)
| GAdd (p : nat)         (* gate.h:104 *)
| GRead2 (p : nat)       (* gate.h:105 *)
| GRemove (p : nat)      (* gate.h:106 *)
| GSelf2 (p : nat)       (* gate.h:107 *)
| GSleep (p : nat)       (* sp.wait, gate.h:119 and 126 *)
| GGiveUp (p : nat).     (* sp.remove, gate.h:119 and 126 *)

Record gate := mkG {
  isOpen : bool;                   (* gate.h:77 *)
  gmem : mem;
  gcq : option nat;
  gpcs : nat -> gpc;
  results : list (nat * bool)      (* what the finished waits have returned *)
}.

(** gate.h:41 *)
Definition ginit (b : bool) : gate := mkG b [] None (fun _ => GIdle) [].

Definition setOpen (s : gate) b := mkG b (gmem s) (gcq s) (gpcs s) (results s).
Definition setMem (s : gate) m cq := mkG (isOpen s) m cq (gpcs s) (results s).
Definition setPc (s : gate) t p :=
  mkG (isOpen s) (gmem s) (gcq s) (fun u => if u =? t then p else gpcs s u) (results s).

(** the wait returns, its slot ends *)
Definition finish (s : gate) (t p : nat) (b : bool) : outcome gate :=
  let! m := kill (gmem s) p in
  Ok (setPc (mkG (isOpen s) m (gcq s) (gpcs s) ((t, b) :: results s)) t GIdle).

Inductive gcmd := COpen | CClose | CWait | CTimeout.

Definition gexec (tc : nat * gcmd) (s : gate) : outcome gate :=
  let (t, c) := tc in
  match gpcs s t with
  | GIdle =>
      match c with
      | COpen => Ok (setPc (setOpen s true) t GOpening)                 (* gate.h:86 *)
      | CClose => Ok (setOpen s false)                                  (* gate.h:94 *)
      | CWait => Ok (setPc (setMem s (gmem s ++ [freshSlot]) (gcq s)) t (GRead1 (length (gmem s))))
      | CTimeout => Ok s
      end
  | GOpening =>
      let! (m, cq, _) := notifyAll (gmem s) (gcq s) in
      Ok (setPc (setMem s m cq) t GIdle)
  | GRead1 p => Ok (setPc s t (if isOpen s then GSelf p else GAdd p))
  | GSelf p | GSelf2 p =>
      let! m := notify (gmem s) p in Ok (setPc (setMem s m (gcq s)) t (GSleep p))
  | GAdd p =>
      let! (m, cq, _) := add (gmem s) (gcq s) p in Ok (setPc (setMem s m cq) t (GRead2 p))
  | GRead2 p => Ok (setPc s t (if isOpen s then GRemove p else GSleep p))
  | GRemove p =>
      let! (m, cq, _) := remove (gmem s) (gcq s) p in Ok (setPc (setMem s m cq) t (GSelf2 p))
  | GSleep p =>
      let! x := get (gmem s) p in
      if psignaled x then finish s t p true
      else match c with CTimeout => Ok (setPc s t (GGiveUp p)) | _ => Ok s end
  | GGiveUp p =>
      let! (m, cq, b) := remove (gmem s) (gcq s) p in finish (setMem s m cq) t p (negb b)
  end.

Fixpoint grun (sched : list (nat * gcmd)) (s : gate) : outcome gate :=
  match sched with
  | [] => Ok s
  | tc :: sched' => let! s := gexec tc s in grun sched' s
  end.
