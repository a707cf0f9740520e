(** Model of AbstractResourcePool (src/lightspeed/base/containers/resourcePool.cpp, resourcePool.h).

    Any number of clients call acquire and release, each client for one resource at a time (a
    thread with more resources stands for more clients).  A step of a client is what it does
    between two accesses to shared memory that other clients can see: a section under queueLock
    is one step, createResource, delete, lockInc and lockDec are one step each.  Resources are
    numbers, never used again after a delete.  The waiting slots (see SyncPt_Model.v) are the list
    of the waiting clients, the first came first: popSlot_lk takes the oldest one (syncPt.cpp:120-148). *)
From Coq Require Import ZArith.
From Verif Require Import Common.
Import ListNotations.
Local Open Scope Z_scope.

(** where a client is *)
Inductive pc :=
| Out                  (* does not own anything and is in no call *)
| Enter                (* at the head of the loop of acquire *)
| Create               (* before createResource *)
| Made (r : nat)       (* before lockDec of acquire *)
| Wait                 (* its slot is in the queue *)
| Got (r : nat)        (* its slot was given a resource *)
| Doomed (r : nat)     (* before the delete of an expired resource *)
| Freed                (* before lockInc of acquire *)
| Has (r : nat)        (* acquire has returned *)
| Giving (r : nat)     (* release: the limit is not exceeded *)
| Killing (r : nat)    (* release: before the delete *)
| Killed.              (* release: before lockInc *)

(** resourcePool.h:98-103; [live] has the resources that are made and not deleted, [fresh] is the next one *)
Record st := mkSt { pool : list nat; cur : Z; waiters : list nat; live : list nat; fresh : nat; pcs : list pc }.
Definition setPc (c : nat) (p : pc) (s : st) : st := mkSt (pool s) (cur s) (waiters s) (live s) (fresh s) (upd (pcs s) c p).
Definition alive (r : nat) (s : st) : bool := if in_dec Nat.eq_dec r (live s) then true else false.
Definition addCur (d : Z) (s : st) : st := mkSt (pool s) (cur s + d) (waiters s) (live s) (fresh s) (pcs s).
Definition destroy (r : nat) (s : st) : outcome st :=
  if alive r s then Ok (mkSt (pool s) (cur s) (waiters s) (remove Nat.eq_dec r (live s)) (fresh s) (pcs s)) else Undef.
(** resourcePool.cpp:31-36 *)
Definition init (clients : nat) (limit : Z) : st := mkSt [] limit [] [] 0 (repeat Out clients).

(** the check of lines 115-129, under the lock: [expired] is what the resource answers *)
Definition check (c r : nat) (expired : bool) (s : st) : outcome st :=
  if alive r s then Ok (setPc c (if expired then Doomed r else Has r) s) else Undef.
(** one step of client [c]; [b] is what is left to chance: whether a resource is expired,
    createResource throws, waiting ends without a resource (resourcePool.cpp:67-136, 156-181) *)
Definition step (c : nat) (b : bool) (s : st) : outcome st :=
  match nth_error (pcs s) c with
  | None => Ok s
  | Some p =>
    match p with
    | Out => Ok (setPc c Enter s)
    | Enter =>
        match pool s with
        | r :: l => check c r b (mkSt l (cur s) (waiters s) (live s) (fresh s) (pcs s))
        | [] =>
            if 0 <? cur s then Ok (setPc c Create s)
            else Ok (setPc c Wait (mkSt [] (cur s) (waiters s ++ [c]) (live s) (fresh s) (pcs s)))
        end
    | Create =>
        if b then Ok (setPc c Out s)
        else Ok (setPc c (Made (fresh s)) (mkSt (pool s) (cur s) (waiters s) (fresh s :: live s) (S (fresh s)) (pcs s)))
    | Made r => Ok (setPc c (Has r) (addCur (-1) s))
    | Wait =>
        if b then Ok (setPc c Out (mkSt (pool s) (cur s) (remove Nat.eq_dec c (waiters s)) (live s) (fresh s) (pcs s)))
        else Ok s
    | Got r => check c r b s
    | Doomed r => let! s := destroy r s in Ok (setPc c Freed s)
    | Freed => Ok (setPc c Enter (addCur 1 s))
    | Has r => Ok (setPc c (if cur s <? 0 then Killing r else Giving r) s)
    | Giving r =>
        match waiters s with
        | [] => Ok (setPc c Out (mkSt (r :: pool s) (cur s) [] (live s) (fresh s) (pcs s)))
        | w :: ws => Ok (setPc c Out (setPc w (Got r) (mkSt (pool s) (cur s) ws (live s) (fresh s) (pcs s))))
        end
    | Killing r => let! s := destroy r s in Ok (setPc c Killed s)
    | Killed => Ok (setPc c Out (addCur 1 s))
    end
  end.
Fixpoint run (l : list (nat * bool)) (s : st) : outcome st :=
  match l with [] => Ok s | (c, b) :: l => let! s := step c b s in run l s end.

(** resourcePool.cpp:138-146: setLimit of a pool with this limit and this curLimit *)
Definition setLimit (limit cur new : Z) : Z * Z :=
  if limit <? new then (limit, cur + (new - limit))
  else if new <? limit then (limit, cur - (limit - cur))
  else (limit, cur).
