(** Model of PoolAlloc and MultiPoolAlloc: base/memory/poolalloc.h.

    One call after another (the lock-free list of free blocks is the one of SList_Model.v, here it is a plain stack).  Blocks of the
    system heap have numbers; freeing or using a block that is not allocated is undefined. *)
From Coq Require Import ZArith.
From Verif Require Import Common.
Open Scope Z_scope.

(** The system heap: the allocated blocks with the number of bytes behind the header (field size is written with that number,
    poolalloc.h:55-57), and the next unused number. *)
Definition heap := list (nat * Z).
Fixpoint size_of (i : nat) (h : heap) : option Z :=
  match h with [] => None | (j, n) :: t => if (i =? j)%nat then Some n else size_of i t end.
Definition drop (i : nat) (h : heap) : heap := filter (fun e => negb (i =? fst e)%nat) h.
(** operator delete *)
Definition del (i : nat) (h : heap) : outcome heap := match size_of i h with Some _ => Ok (drop i h) | None => Undef end.

(** poolalloc.h:99-102 *)
Record st := mkSt { free : list nat; largest : Z; destroyed : bool; refs : Z; mem : heap; fresh : nat }.
(** poolalloc.h:77 *)
Definition init : st := mkSt [] 0 false 1 [] 0.

(** poolalloc.h:36-50: blocks are popped until one is large enough, smaller ones are deleted *)
Fixpoint take (n : Z) (f : list nat) (h : heap) : outcome (option nat * list nat * heap) :=
  match f with
  | [] => Ok (None, [], h)
  | x :: t =>
      match size_of x h with
      | None => Undef
      | Some m => if m <? n then let! h' := del x h in take n t h' else Ok (Some x, t, h)
      end
  end.
(** poolalloc.h:30-61: alloc; [ok] says whether operator new succeeds.  The result [None] is an exception.  8 is
    sizeof(Block) - sizeof(BlockBase). *)
Definition alloc (ok : bool) (n : Z) (s : st) : outcome (option nat * st) :=
  let n := if n <? 8 then 8 else n in
  let! (r, h) := take n (free s) (mem s) in
  let (x, f) := r in
  match x with
  | Some b => Ok (Some b, mkSt f (largest s) (destroyed s) (refs s + 1) h (fresh s))
  | None =>
      let big := if largest s <? n then n else largest s in
      let n := if n <? big then big else n in
      if ok then Ok (Some (fresh s), mkSt f big (destroyed s) (refs s + 1) ((fresh s, n) :: h) (S (fresh s)))
      else Ok (None, mkSt f big (destroyed s) (refs s + 1) h (fresh s))
  end.
(** poolalloc.h:79-85: freeExtra *)
Fixpoint del_all (f : list nat) (h : heap) : outcome heap :=
  match f with [] => Ok h | x :: t => let! h' := del x h in del_all t h' end.
Definition freeExtra (s : st) : outcome st :=
  let! h := del_all (free s) (mem s) in Ok (mkSt [] (largest s) (destroyed s) (refs s) h (fresh s)).
(** poolalloc.h:91-96: release *)
Definition release (s : st) : outcome st :=
  let s := mkSt (free s) (largest s) (destroyed s) (refs s - 1) (mem s) (fresh s) in
  if refs s =? 0 then let! s := freeExtra s in Ok (mkSt (free s) (largest s) true (refs s) (mem s) (fresh s)) else Ok s.
(** poolalloc.h:63-75: dealloc; the block is written to when it is pushed *)
Definition dealloc (b : nat) (s : st) : outcome st :=
  match size_of b (mem s) with
  | None => Undef
  | Some _ =>
      let! s := if destroyed s then let! h := del b (mem s) in Ok (mkSt (free s) (largest s) (destroyed s) (refs s) h (fresh s))
                else Ok (mkSt (b :: free s) (largest s) (destroyed s) (refs s) (mem s) (fresh s)) in
      release s
  end.

(** A user: [held] are the blocks in use with the requested sizes, [gone]: release() was called. *)
Record user := mkU { pool : st; held : list (nat * Z); gone : bool }.
Definition user0 : user := mkU init [] false.
Inductive op := Alloc (ok : bool) (n : Z) | Dealloc (i : nat) | FreeExtra | Release.
Fixpoint rem {A} (i : nat) (l : list A) : list A :=
  match l, i with [], _ => [] | _ :: t, O => t | x :: t, S j => x :: rem j t end.
(** release() is called once, only blocks in use are freed *)
Definition exec (o : op) (u : user) : outcome user :=
  match o with
  | Alloc ok n =>
      let! (b, s) := alloc ok n (pool u) in
      Ok (mkU s (match b with Some x => (x, n) :: held u | None => held u end) (gone u))
  | Dealloc i => match nth_error (held u) i with Some (b, _) => let! s := dealloc b (pool u) in Ok (mkU s (rem i (held u)) (gone u)) | None => Ok u end
  | FreeExtra => let! s := freeExtra (pool u) in Ok (mkU s (held u) (gone u))
  | Release => if gone u then Ok u else let! s := release (pool u) in Ok (mkU s (held u) true)
  end.
Fixpoint run (l : list op) (u : user) : outcome user :=
  match l with [] => Ok u | o :: t => let! u' := exec o u in run t u' end.

(** poolalloc.h:136-155: getOwner: the number of the pool for a size; 7 is StdAlloc *)
Definition owner (n : Z) : nat :=
  if 1024 <? n then 7 else if n <=? 16 then 0 else if n <=? 32 then 1 else if n <=? 64 then 2 else if n <=? 128 then 3
  else if n <=? 256 then 4 else if n <=? 512 then 5 else 6.
(** poolalloc.h:158: the pools; [std] is the part of the system heap used through StdAlloc (stdAlloc.h:83-88).  A block is
    known by the pool that allocated it and its number. *)
Record multi := mkM { pools : list st; std : heap; sfresh : nat; inuse : list (nat * nat * Z) }.
Definition multi0 : multi := mkM (repeat init 7) [] 0 [].
Inductive mop := MAlloc (ok : bool) (n : Z) | MDealloc (i : nat).
(** poolalloc.h:117-122: alloc and dealloc; dealloc finds the pool by the size given by the user, which is the requested
    one.  A block freed by another pool than that which allocated it is undefined here. *)
Definition mexec (o : mop) (m : multi) : outcome multi :=
  match o with
  | MAlloc ok n =>
      match nth_error (pools m) (owner n) with
      | Some s => let! (b, s') := alloc ok n s in
                  Ok (mkM (upd (pools m) (owner n) s') (std m) (sfresh m) (match b with Some x => (owner n, x, n) :: inuse m | None => inuse m end))
      | None => if ok then Ok (mkM (pools m) ((sfresh m, n) :: std m) (S (sfresh m)) ((owner n, sfresh m, n) :: inuse m)) else Ok m
      end
  | MDealloc i =>
      match nth_error (inuse m) i with
      | None => Ok m
      | Some (k, b, n) =>
          if (k =? owner n)%nat then
            match nth_error (pools m) (owner n) with
            | Some s => let! s' := dealloc b s in Ok (mkM (upd (pools m) (owner n) s') (std m) (sfresh m) (rem i (inuse m)))
            | None => let! h := del b (std m) in Ok (mkM (pools m) h (sfresh m) (rem i (inuse m)))
            end
          else Undef
      end
  end.
Fixpoint mrun (l : list mop) (m : multi) : outcome multi :=
  match l with [] => Ok m | o :: t => let! m' := mexec o m in mrun t m' end.
