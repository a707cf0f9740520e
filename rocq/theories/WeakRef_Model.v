(** Model of weak references: WeakRef, WeakRefTarget and WeakRefPtr
    (/repo/src/lightspeed/base/memory/weakref.h), one control block used by any
    number of threads.

    Each atomic operation is one step; the scheduler picks which step runs next.
    Not modelled: the counting of the references to the control block itself
    (see RefCnt_Model.v). *)
From Verif Require Import Common WeakRef_Spec.
Local Open Scope Z_scope.

(** atomicValue is a signed 64-bit integer, /repo/src/lightspeed/mt/linux/atomic_type.h:15-16 *)
Definition w64 (v : Z) : Z := (v + 2^63) mod 2^64 - 2^63.
(** weakref.h:58-59 *)
Definition initedFlag : Z := -2^63.
Definition leftFlag : Z := 2^62.

(** a WeakRefPtr: it holds what lockInternal gave, or its destructor has
    lowered the counter to zero and has to call wakeUp, or it is gone *)
Inductive hstate := HHeld (r : option nat) | HNotify | HGone.

(** the thread that calls setNull, weakref.h:169-214 *)
Inductive sstate :=
| SIdle      (* before the call *)
| SCas       (* before lockCompareExchange, :172 *)
| SReg       (* before clearOutNotify is set, :180 *)
| SSub       (* before lockExchangeSub, :184 *)
| SHalt      (* before threadHalt, :192 *)
| SRead      (* before lockExchangeAdd(.., 0), :197 *)
| SLeft      (* before lockExchangeAdd(.., leftFlag), :208 *)
| SRet       (* setNull returned *)
| SExit.     (* the thread ended, its sleeping object is gone *)

(** the control block (weakref.h:61-79), the token of the sleeping object of the
    setting thread, the threads and the log *)
Record wst := mkW {
  wTarget : nat; wCount : Z; wNotify : bool; wToken : bool;
  wSet : sstate; wHandles : list hstate; wLog : list wev }.

(** Pointer(T *ptr), weakref.h:75-78 *)
Definition winit (target : nat) : wst := mkW target initedFlag false false SIdle [] [].

Inductive wact := ALock | AUnlock (h : nat) | ANotify (h : nat) | ASet | ASpurious | AExit.

Definition setCount (w : wst) (c : Z) := mkW (wTarget w) c (wNotify w) (wToken w) (wSet w) (wHandles w) (wLog w).
Definition setSet (w : wst) (s : sstate) := mkW (wTarget w) (wCount w) (wNotify w) (wToken w) s (wHandles w) (wLog w).
Definition setToken (w : wst) (t : bool) := mkW (wTarget w) (wCount w) (wNotify w) t (wSet w) (wHandles w) (wLog w).
Definition setHandles (w : wst) (l : list hstate) := mkW (wTarget w) (wCount w) (wNotify w) (wToken w) (wSet w) l (wLog w).
Definition regNotify (w : wst) := mkW (wTarget w) (wCount w) true (wToken w) (wSet w) (wHandles w) (wLog w).
Definition wlog (w : wst) (e : wev) := mkW (wTarget w) (wCount w) (wNotify w) (wToken w) (wSet w) (wHandles w) (wLog w ++ [e]).

(** lockInternal, weakref.h:125-132: a new WeakRefPtr (weakref.h:290-294) *)
Definition doLock (w : wst) : wst :=
  let v := w64 (wCount w + 1) in
  let r := if v <? 0 then Some (wTarget w) else None in
  let w := setCount w v in
  wlog (setHandles w (wHandles w ++ [HHeld r])) (WLock (length (wHandles w)) r).

(** unlockInternal, weakref.h:138-145, up to the call of wakeUp; called by the
    destructor weakref.h:296 *)
Definition doUnlock (w : wst) (h : nat) : wst :=
  let v := w64 (wCount w - 1) in
  let w := setCount w v in
  wlog (setHandles w (upd (wHandles w) h (if v =? 0 then HNotify else HGone))) (WUnlock h).

(** the call clearOutNotify->wakeUp(0), weakref.h:144: undefined when the
    pointer is null or the sleeping object is gone *)
Definition doNotify (w : wst) (h : nat) : outcome wst :=
  if negb (wNotify w) then Undef else
  match wSet w with
  | SExit => Undef
  | _ => Ok (setHandles (setToken w true) (upd (wHandles w) h HGone))
  end.

(** one step of setNull *)
Definition doSet (w : wst) : wst :=
  match wSet w with
  | SIdle => wlog (setSet w SCas) WSetBegin
  | SCas =>                                                            (* :172-175, 210-212 *)
      let v := wCount w in
      if v =? initedFlag then wlog (setSet (setCount w leftFlag) SRet) WSetEnd
      else if (initedFlag <? v) && (v <? 0) then setSet w SReg
      else wlog (setSet w SRet) WSetEnd
  | SReg => setSet (regNotify w) SSub                                  (* :180 *)
  | SSub =>                                                            (* :184-190 *)
      let v := w64 (wCount w - initedFlag) in
      setSet (setCount w v) (if v =? 0 then SLeft else SHalt)
  | SHalt => if wToken w then setSet (setToken w false) SRead else w   (* :192 *)
  | SRead => setSet w (if wCount w =? 0 then SLeft else SHalt)         (* :197, 190 *)
  | SLeft => wlog (setSet (setCount w (w64 (wCount w + leftFlag))) SRet) WSetEnd (* :208-209 *)
  | SRet | SExit => w
  end.

(** a step that is not enabled does nothing; [ASpurious]: somebody else wakes
    the setting thread *)
Definition wstep (a : wact) (w : wst) : outcome wst :=
  match a with
  | ALock => Ok (doLock w)
  | AUnlock h => match nth_error (wHandles w) h with Some (HHeld _) => Ok (doUnlock w h) | _ => Ok w end
  | ANotify h => match nth_error (wHandles w) h with Some HNotify => doNotify w h | _ => Ok w end
  | ASet => Ok (doSet w)
  | ASpurious => Ok (setToken w true)
  | AExit => match wSet w with SRet => Ok (setSet w SExit) | _ => Ok w end
  end.

Fixpoint wrun (l : list wact) (w : wst) : outcome wst :=
  match l with
  | [] => Ok w
  | a :: l' => let! w := wstep a w in wrun l' w
  end.

(** how many times the reference is locked *)
Fixpoint nLocks (l : list wact) : Z :=
  match l with [] => 0 | ALock :: l' => 1 + nLocks l' | _ :: l' => nLocks l' end.
