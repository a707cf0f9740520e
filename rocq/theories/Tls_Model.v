(** Model of thread variables: /repo/src/lightspeed/base/sync/threadVar.h (TLSRecord,
    TLSTable, ThreadVar, ThreadVarInit) and tlsalloc.cpp (TLSAllocator). *)
From Verif Require Import Common Tls_Spec Heap_Model.

(** threadVar.h:27-79: varPtr (0 is NULL) and whether deleteFunct is set *)
Definition record : Type := (nat * bool)%type.
(** threadVar.h:32 *)
Definition empty : record := (0, false).
(** threadVar.h:33-35 *)
Definition isInited (r : record) : bool := snd r || negb (fst r =? 0).

Record st := mkSt {
  tab : list record;       (* threadVar.h:175, dynamicTable *)
  cap : option nat;        (* how many records the allocator gives: None for StdAlloc,
                              linux/thread.cpp:185-191 for a thread: the variables that
                              exist when it starts (inBlockAlloc.h:29-47, autoArray.tcc:23-52) *)
  puts : list nat;         (* log: values given to the table with a delete function *)
  dels : list nat          (* log: values passed to their delete function *)
}.

Definition start (c : option nat) : st := mkSt [] c [] [].

Definition setTab (s : st) (t : list record) : st := mkSt t (cap s) (puts s) (dels s).
Definition logPut (s : st) (v : nat) (d : bool) : st :=
  mkSt (tab s) (cap s) (if d then v :: puts s else puts s) (dels s).
Definition logDel (s : st) (v : nat) : st := mkSt (tab s) (cap s) (puts s) (v :: dels s).

(** threadVar.h:131-134 *)
Definition getVar (s : st) (i : nat) : nat := fst (nth i (tab s) empty).

Section Run.
(** what the delete function of a value does with this table *)
Variable react : nat -> list op.

(** threadVar.h:43-61; [k] runs a delete function *)
Definition unset (k : list op -> st -> outcome st) (i : nat) (s : st) : outcome st :=
  let r := nth i (tab s) empty in
  let s1 := setTab s (upd (tab s) i empty) in
  if snd r then k (react (fst r)) (logDel s1 (fst r)) else Ok s1.

(** threadVar.h:155-160 *)
Definition unsetVar (k : list op -> st -> outcome st) (i : nat) (s : st) : outcome st :=
  if length (tab s) <=? i then Ok s else unset k i s.

(** AutoArray::resize to [n] records, more than there are: autoArray.tcc:23-52, 102-109 *)
Definition grow (n : nat) (s : st) : outcome st :=
  match cap s with
  | Some c => if c <? n then Throw else Ok (setTab s (tab s ++ repeat empty (n - length (tab s))))
  | None => Ok (setTab s (tab s ++ repeat empty (n - length (tab s))))
  end.

(** threadVar.h:37-41: [this] is the address of the record, it is not valid any
    more when the delete function makes the table longer (simplified: also when
    the block of memory has room for it) *)
Definition set_ (k : list op -> st -> outcome st) (i v : nat) (d : bool) (s : st) : outcome st :=
  let! s1 := unset k i s in
  if length (tab s1) =? length (tab s) then Ok (logPut (setTab s1 (upd (tab s1) i (v, d))) v d) else Undef.

(** threadVar.h:143-152 *)
Definition setVar (k : list op -> st -> outcome st) (i v : nat) (d : bool) (s : st) : outcome st :=
  if (v =? 0) && negb d && (length (tab s) <=? i) then Ok s
  else let! s := (if length (tab s) <=? i then grow (i + 1) s else Ok s) in set_ k i v d s.

(** threadVar.h:114-120: one pass; the length is read before it *)
Fixpoint pass (k : list op -> st -> outcome st) (xs : list nat) (rep : bool) (s : st) : outcome (bool * st) :=
  match xs with
  | [] => Ok (rep, s)
  | x :: xs' =>
      if isInited (nth x (tab s) empty) then let! s := unset k x s in pass k xs' true s
      else pass k xs' rep s
  end.

(** a list of calls; [Set_]: threadVar.h:250-253; [Clear]: threadVar.h:102-123 *)
Fixpoint run (fuel : nat) (l : list op) (s : st) : outcome st :=
  match fuel with
  | O => NoFuel
  | S f =>
      match l with
      | [] => Ok s
      | Set_ i v d :: l' =>
          let! s := unsetVar (run f) i s in
          let! s := setVar (run f) i v d s in run f l' s
      | Raw i v d :: l' => let! s := setVar (run f) i v d s in run f l' s
      | Unset i :: l' => let! s := unsetVar (run f) i s in run f l' s
      | Clear :: l' =>
          let! rs := pass (run f) (seq 0 (length (tab s))) false s in
          run f (if fst rs then Clear :: l' else l') (snd rs)
      end
  end.

(** threadVar.h:272-276, setValue: the value is allocated, then set; the second
    part of the result are the objects nobody will delete *)
Definition setValue (fuel i v : nat) (s : st) : outcome st * list nat :=
  match run fuel [Set_ i v true] s with
  | Throw => (Throw, [v])
  | r => (r, [])
  end.

(** threadVar.h:401-412, init: it catches the exception and deletes the value *)
Definition init (fuel i v : nat) (s : st) : outcome st * list nat :=
  match run fuel [Set_ i v true] s with
  | Throw => (Throw, [])
  | r => (r, [])
  end.

End Run.

(** threadVar.h:164-171, moveTo, delete functions that do not touch variables; the
    records of the old table are destroyed at the end, autoArray.tcc:188-190 *)
Fixpoint copyTo (rs : list record) (i : nat) (s : st) : outcome st :=
  match rs with
  | [] => Ok s
  | r :: rs' => let! s := setVar (fun _ => []) (run (fun _ => []) 1) i (fst r) (snd r) s in copyTo rs' (i + 1) s
  end.
Definition moveTo (old new : st) : outcome (st * st) :=
  let! new := copyTo (tab old) 0 new in
  Ok (mkSt [] (cap old) (puts old) (rev (map fst (filter snd (tab old))) ++ dels old), new).

(** ** TLSAllocator, tlsalloc.h:64-65; the free list is a SortFilter (sortFilter.tcc) with the order < *)
Record alloc := mkAl { freeList : heap nat; nextIndex : nat }.
(** tlsalloc.h:36 *)
Definition newAlloc : alloc := mkAl (mkHeap [] 0) 0.

(** sortFilter.tcc:52-54 *)
Definition input (h : heap nat) (x : nat) : outcome (heap nat) :=
  let! r := push Nat.ltb (mkHeap (arr h ++ [x]) (hsize h)) in Ok (snd r).
(** sortFilter.tcc:110-115, 85-91 *)
Definition output (h : heap nat) : outcome (nat * heap nat) :=
  match arr h with
  | [] => Throw
  | x :: _ => let! r := pop Nat.ltb h in Ok (x, mkHeap (removelast (arr (snd r))) (hsize (snd r)))
  end.

(** tlsalloc.cpp:13-21 *)
Definition allocIndex (a : alloc) : outcome (nat * alloc) :=
  match arr (freeList a) with
  | [] => Ok (nextIndex a, mkAl (freeList a) (nextIndex a + 1))
  | _ => let! r := output (freeList a) in Ok (fst r, mkAl (snd r) (nextIndex a))
  end.

(** tlsalloc.cpp:24-31 *)
Definition freeIndex (a : alloc) (i : nat) : outcome alloc :=
  if i + 1 =? nextIndex a then Ok (mkAl (freeList a) (nextIndex a - 1))
  else if i <? nextIndex a then let! h := input (freeList a) i in Ok (mkAl h (nextIndex a))
  else Ok a.

(** tlsalloc.cpp:33-35, plus one: the size of the table a new thread gets, linux/thread.cpp:185 *)
Definition indexes (a : alloc) : nat := nextIndex a.

(** a client that has the variables with the indexes [held]; [peak] is the largest
    number of variables it had at once *)
Fixpoint aRun (l : list aop) (a : alloc) (held : list nat) (peak : nat) : outcome (alloc * list nat * nat) :=
  match l with
  | [] => Ok (a, held, peak)
  | Declare_ :: l' =>
      let! r := allocIndex a in aRun l' (snd r) (fst r :: held) (Nat.max peak (S (length held)))
  | Destroy k :: l' =>
      match nth_error held k with
      | Some i => let! a := freeIndex a i in aRun l' a (firstn k held ++ skipn (S k) held) peak
      | None => aRun l' a held peak
      end
  end.
