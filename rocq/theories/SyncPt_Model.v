(** Model of SyncPt: /repo/src/lightspeed/mt/syncPt.h:63-291 and
    /repo/src/lightspeed/mt/syncPt.cpp.

    The functions change the chain of slots under queueLock, so each is one step
    here.  Slots live in a memory [list pslot]; a dead slot must not be used. *)
From Verif Require Import Common SyncPt_Spec.

(** syncPt.h:68-130 and notifier.h: [signaled] is the flag of Notifier *)
Record pslot := mkP { pnext : option nat; charged : bool; psignaled : bool; plive : bool }.

(** syncPt.h:71 *)
Definition freshSlot : pslot := mkP None false false true.

Definition mem := list pslot.

Definition get (m : mem) (p : nat) : outcome pslot :=
  match nth_error m p with
  | Some x => if plive x then Ok x else Undef
  | None => Undef
  end.

(** syncPt.h:99-101, notifier.h:59-68; the forwarded wake-up is not kept: a
    sleeping thread looks at the flag *)
Definition notify (m : mem) (p : nat) : outcome mem :=
  let! x := get m p in Ok (upd m p (mkP (pnext x) (charged x) true (plive x))).

(** end of the life of a slot *)
Definition kill (m : mem) (p : nat) : outcome mem :=
  let! x := get m p in Ok (upd m p (mkP (pnext x) (charged x) (psignaled x) false)).

(** syncPt.cpp:155-162 *)
Definition add_lk (m : mem) (cq : option nat) (p : nat) : outcome (mem * option nat) :=
  let! x := get m p in Ok (upd m p (mkP cq true (psignaled x) (plive x)), Some p).

(** syncPt.cpp:27-38 *)
Definition add (m : mem) (cq : option nat) (p : nat) : outcome (mem * option nat * bool) :=
  let! x := get m p in
  if match pnext x with Some _ => true | None => false end || psignaled x || charged x
  then Ok (m, cq, false)
  else let! r := add_lk m cq p in Ok (r, true).

(** the loop at syncPt.cpp:57-58: the slot whose next is [p], or the last one;
    the fuel is not in the code *)
Fixpoint findBefore (fuel : nat) (m : mem) (q p : nat) : outcome nat :=
  let! x := get m q in
  match pnext x with
  | None => Ok q
  | Some r => if r =? p then Ok q else
              match fuel with O => NoFuel | S f => findBefore f m r p end
  end.

(** syncPt.cpp:40-77 *)
Definition remove (m : mem) (cq : option nat) (p : nat) : outcome (mem * option nat * bool) :=
  let! s := get m p in
  if charged s then
    match cq with
    | None => Ok (m, cq, false)
    | Some q =>
        if q =? p then Ok (m, pnext s, true) else
        let! b := findBefore (length m) m q p in
        let! x := get m b in
        if match pnext x with Some r => r =? p | None => false end
        then Ok (upd m b (mkP (pnext s) (charged x) (psignaled x) (plive x)), cq, true)
        else Ok (m, cq, false)
    end
  else Ok (m, cq, true).

(** the loop at syncPt.cpp:130-134: the last two slots of the chain *)
Fixpoint findEnd (fuel : nat) (m : mem) (q p : nat) : outcome (nat * nat) :=
  let! x := get m p in
  match pnext x with
  | None => Ok (q, p)
  | Some r => match fuel with O => NoFuel | S f => findEnd f m p r end
  end.

(** syncPt.cpp:120-148 *)
Definition popSlot (ord : sorder) (m : mem) (cq : option nat) : outcome (mem * option nat * option nat) :=
  match cq with
  | None => Ok (m, cq, None)
  | Some p =>
      let! x := get m p in
      match ord, pnext x with
      | Oldest, Some r =>
          let! (q, e) := findEnd (length m) m p r in
          let! y := get m q in
          Ok (upd m q (mkP None (charged y) (psignaled y) (plive y)), cq, Some e)
      | _, n => Ok (upd m p (mkP None (charged x) (psignaled x) (plive x)), n, Some p)
      end
  end.

(** syncPt.cpp:98-104 *)
Definition notifyOne (ord : sorder) (m : mem) (cq : option nat) : outcome (mem * option nat * bool) :=
  let! (m1, cq1, p) := popSlot ord m cq in
  match p with
  | None => Ok (m1, cq1, false)
  | Some p => let! m2 := notify m1 p in Ok (m2, cq1, true)
  end.

(** the loop at syncPt.cpp:111-116 *)
Fixpoint notifyChain (fuel : nat) (m : mem) (p : option nat) : outcome mem :=
  match p with
  | None => Ok m
  | Some q =>
      match fuel with
      | O => NoFuel
      | S f => let! x := get m q in
               let! m1 := notify m q in
               notifyChain f m1 (pnext x)
      end
  end.

(** syncPt.cpp:106-118 *)
Definition notifyAll (m : mem) (cq : option nat) : outcome (mem * option nat * bool) :=
  let! m1 := notifyChain (length m) m cq in
  Ok (m1, None, match cq with None => false | Some _ => true end).

(** syncPt.h:114-121 *)
Definition resetSlot (m : mem) (p : nat) : outcome (mem * bool) :=
  let! x := get m p in
  if psignaled x then Ok (upd m p (mkP (pnext x) (charged x) false (plive x)), true) else Ok (m, false).

(** one operation of a program *)
Definition sstep (ord : sorder) (o : sop) (m : mem) (cq : option nat) : outcome (mem * option nat * bool) :=
  match o with
  | ONew => Ok (m ++ [freshSlot], cq, true)
  | OAdd p => add m cq p
  | ORemove p => remove m cq p
  | OOne => notifyOne ord m cq
  | OAll => notifyAll m cq
  | OTest p => let! x := get m p in Ok (m, cq, psignaled x)
  | OReset p => let! (m1, b) := resetSlot m p in Ok (m1, cq, b)
  end.

Fixpoint srun (ord : sorder) (ops : list sop) (m : mem) (cq : option nat) : outcome (list bool) :=
  match ops with
  | [] => Ok []
  | o :: ops' => let! (m1, cq1, b) := sstep ord o m cq in
                 let! l := srun ord ops' m1 cq1 in Ok (b :: l)
  end.
