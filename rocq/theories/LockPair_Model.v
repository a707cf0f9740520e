(** Model of LockPair, base/sync/lockPair.h: threads lock pairs of locks.

    The locks are plain ones: lock() waits until the lock is free, tryLock() does not wait, unlock() frees the lock, also if it
    throws.  Each operation of a lock is one step; a lock is not recursive. *)
From Verif Require Import Common LockPair_Spec.

(** lockPair.h:131-153, 155-178: L1 lk1.lock(), L2 lk2.tryLock(), L3 lk1.unlock(), L4 lk2.lock(), L5 lk1.tryLock(), L6
    lk2.unlock(); lockPair.h:105-118: T1 lk1.tryLock(), T2 lk2.tryLock(), T3 lk1.unlock(); E1, E2: lk1.unlock(), lk2.unlock() in
    a handler; lockPair.h:120-129: U1 lk1.unlock(), U2 lk2.unlock(); Inside: between the calls, the locks are held *)
Inductive pcs := Idle | L1 | L2 | L3 | L4 | L5 | L6 | E1 | E2 | T1 | T2 | T3 | Inside | U1 | U2.
(** lockPair.h:100-101: lk1, lk2 *)
Record thread := mkT { lk1 : nat; lk2 : nat; todo : list call; cur : call; pc : pcs; finished : list (call * result) }.
Record st := mkS { owner : list (option nat); ths : list thread }.
(** [Broken]: a thread unlocks a lock it does not own *)
Inductive res := Moved (s : st) | Blocked | Broken.

Definition goto (x : thread) (p : pcs) : thread := mkT (lk1 x) (lk2 x) (todo x) (cur x) p (finished x).
Definition give (x : thread) (r : result) (p : pcs) : thread := mkT (lk1 x) (lk2 x) (todo x) (cur x) p (finished x ++ [(cur x, r)]).
(** the next call *)
Definition enter (x : thread) (c : call) (r : list call) : thread := mkT (lk1 x) (lk2 x) r c (match c with TryLock => T1 | _ => L1 end) (finished x).
Definition put (s : st) (t : nat) (x : thread) : res := Moved (mkS (owner s) (upd (ths s) t x)).
Definition acquire (s : st) (t l : nat) (x : thread) : res :=
  match nth_error (owner s) l with Some None => Moved (mkS (upd (owner s) l (Some t)) (upd (ths s) t x)) | _ => Blocked end.
Definition try_ (s : st) (t l : nat) (x y : thread) : res :=
  match nth_error (owner s) l with Some None => Moved (mkS (upd (owner s) l (Some t)) (upd (ths s) t x)) | Some (Some _) => put s t y | None => Blocked end.
Definition release (s : st) (t l : nat) (x : thread) : res :=
  match nth_error (owner s) l with
  | Some (Some u) => if u =? t then Moved (mkS (upd (owner s) l None) (upd (ths s) t x)) else Broken
  | _ => Broken
  end.
Definition step (t : nat) (e : event) (s : st) : res :=
  match nth_error (ths s) t with
  | None => Blocked
  | Some x =>
      let a := lk1 x in let b := lk2 x in
      let fail := give x Thrown Idle in
      match pc x, e with
      | Idle, Go => match todo x with c :: r => put s t (enter x c r) | [] => Blocked end
      (* lockPair.h:131-153, 155-178 *)
      | L1, Go => acquire s t a (goto x L2)
      | L1, Raise => put s t fail
      | L1, Expire | L4, Expire => match cur x with LockFor => put s t (give x NotGot Idle) | _ => Blocked end
      | L2, Go => try_ s t b (give x Got Inside) (goto x L3)
      | L2, Raise => put s t (goto x E1)
      | L3, Go => release s t a (goto x L4)
      | L3, Raise => release s t a fail
      | L4, Go => acquire s t b (goto x L5)
      | L4, Raise => put s t fail
      | L5, Go => try_ s t a (give x Got Inside) (goto x L6)
      | L5, Raise => put s t (goto x E2)
      | L6, Go => release s t b (goto x L1)
      | L6, Raise => release s t b fail
      | E1, Go | E1, Raise => release s t a fail
      | E2, Go | E2, Raise => release s t b fail
      (* lockPair.h:105-118 *)
      | T1, Go => try_ s t a (goto x T2) (give x NotGot Idle)
      | T1, Raise => put s t fail
      | T2, Go => try_ s t b (give x Got Inside) (goto x T3)
      | T2, Raise => put s t (goto x E1)
      | T3, Go => release s t a (give x NotGot Idle)
      | T3, Raise => release s t a fail
      (* lockPair.h:120-129 *)
      | Inside, Go => put s t (goto x U1)
      | U1, Go | U1, Raise => release s t a (goto x U2)
      | U2, Go | U2, Raise => release s t b (goto x Idle)
      | _, _ => Blocked
      end
  end.
Fixpoint run (l : list (nat * event)) (s : st) : res :=
  match l with [] => Moved s | (t, e) :: r => match step t e s with Moved s1 => run r s1 | x => x end end.
(** [n] free locks, threads with their pairs and calls *)
Definition init (n : nat) (l : list (nat * nat * list call)) : st :=
  mkS (repeat None n) (map (fun p => mkT (fst (fst p)) (snd (fst p)) (snd p) Lock Idle []) l).
