(** Model of SmallAlloc (base/memory/smallAlloc.h) and of AutoArray that uses it (base/containers/autoArray.tcc), items are plain
    numbers.

    Blocks of the heap have numbers.  A block comes from operator new or from the runtime allocator of the array, and must be
    returned to the same place: anything else is undefined, and so is access to freed memory or behind the end of a block. *)
From Verif Require Import Common.
From Coq Require Import ZArith.

(** a block: whether it comes from a runtime allocator, and its cells *)
Definition heap := list (nat * (bool * list Z)).
Fixpoint find (i : nat) (h : heap) : option (bool * list Z) :=
  match h with [] => None | (j, c) :: t => if i =? j then Some c else find i t end.
Definition drop (i : nat) (h : heap) : heap := filter (fun e => negb (i =? fst e)) h.
Fixpoint put (i : nat) (c : list Z) (h : heap) : heap :=
  match h with [] => [] | (j, (k, d)) :: t => if i =? j then (j, (k, c)) :: t else (j, (k, d)) :: put i c t end.
Record world := mkW { mem : heap; fresh : nat }.

(** smallAlloc.h:116-119: [Loc]: ptr is the own buffer *)
Inductive place := Null | Loc | Blk (i : nat).
Record am := mkAM { rt : bool; ptr : place; size : nat; buf : list Z }.
(** smallAlloc.h:121 *)
Definition isLocal (m : am) : bool := match ptr m with Loc => true | _ => false end.

(** smallAlloc.h:123-136: allocMem; [ok]: whether the allocator has memory.  [None]: OutOfMemoryException *)
Definition allocMem (cnt : nat) (ok r : bool) (count : nat) (w : world) : option (am * world) :=
  if cnt <? count then
    if ok then Some (mkAM r (Blk (fresh w)) count (repeat 0%Z cnt), mkW ((fresh w, (r, repeat 0%Z count)) :: mem w) (S (fresh w))) else None
  else Some (mkAM r Loc cnt (repeat 0%Z cnt), w).
(** operator delete and IRuntimeAlloc::dealloc *)
Definition release (r : bool) (p : place) (w : world) : outcome world :=
  match p with
  | Null => if r then Undef else Ok w
  | Loc => Undef
  | Blk i => match find i (mem w) with
             | Some (k, _) => if Bool.eqb k r then Ok (mkW (drop i (mem w)) (fresh w)) else Undef
             | None => Undef end
  end.
(** smallAlloc.h:95-100: the destructor *)
Definition dtor (m : am) (w : world) : outcome world := if isLocal m then Ok w else release (rt m) (ptr m) w.
(** smallAlloc.h:61-75: m.move(other): the result, m and other *)
Definition move (m other : am) (w : world) : outcome (bool * am * am * world) :=
  if isLocal m then Ok (false, m, other, w)
  else
    let! w := if isLocal other then Ok w else release false (ptr other) w in
    Ok (true, mkAM false Null 0 (buf m), mkAM (rt m) (ptr m) (size m) (buf other), w).
(** smallAlloc.h:53-59 *)
Definition swapAM (m other : am) : bool * am * am :=
  if isLocal m || isLocal other then (false, m, other)
  else (true, mkAM (rt other) (ptr other) (size other) (buf m), mkAM (rt m) (ptr m) (size m) (buf other)).

(** access to the memory of getBase() *)
Definition cells (m : am) (w : world) : outcome (list Z) :=
  match ptr m with
  | Null => Undef
  | Loc => Ok (buf m)
  | Blk i => match find i (mem w) with Some (_, c) => Ok c | None => Undef end
  end.
Definition store (m : am) (c : list Z) (w : world) : am * world :=
  match ptr m with Blk i => (m, mkW (put i c (mem w)) (fresh w)) | _ => (mkAM (rt m) (ptr m) (size m) c, w) end.
(** [n] items at [x] of one list of cells *)
Definition getn (x n : nat) (c : list Z) : outcome (list Z) := if x + n <=? length c then Ok (firstn n (skipn x c)) else Undef.
Definition setn (x : nat) (d c : list Z) : outcome (list Z) :=
  if x + length d <=? length c then Ok (firstn x c ++ d ++ skipn (x + length d) c) else Undef.

(** autoArray.h:294-295 *)
Record arr := mkA { blk : am; used : nat }.
(** autoArray.h:32: allocBk(alloc,0) *)
Definition arr0 (cnt : nat) (r : bool) : arr :=
  match allocMem cnt true r 0 (mkW [] 0) with Some (m, _) => mkA m 0 | None => mkA (mkAM r Null 0 []) 0 end.

(** autoArray.tcc:37-46 and :61-70: the block is replaced by one of [max] items.  [limit]: whether failed move throws
    (autoArray.tcc:48).  The result tells whether an exception was thrown; the destructors of newblk and tmp run last. *)
Definition realloc (cnt : nat) (ok limit : bool) (max : nat) (a : arr) (w : world) : outcome (bool * arr * world) :=
  match allocMem cnt ok (rt (blk a)) max w with
  | None => Ok (true, a, w)
  | Some (tmp, w) =>
      match allocMem cnt ok (rt (blk a)) 0 w with
      | None => let! w := dtor tmp w in Ok (true, a, w)
      | Some (newblk, w) =>
          let! (r, w) := move tmp newblk w in
          let '(moved, tmp, newblk) := r : bool * am * am in
          if moved then
            let! old := cells (blk a) w in
            let! items := getn 0 (used a) old in
            let! c := cells newblk w in
            let! c := setn 0 items c in
            let (newblk, w) := store newblk c w in
            let! (r, w) := move newblk (blk a) w in
            let '(_, newblk, b) := r : bool * am * am in
            let! w := dtor newblk w in
            let! w := dtor tmp w in
            Ok (false, mkA b (used a), w)
          else
            let! w := dtor newblk w in
            let! w := dtor tmp w in
            Ok (limit, a, w)
      end
  end.
(** autoArray.tcc:24-52: addExtra; expand is refused (smallAlloc.h:102); sums do not wrap around *)
Definition addExtra (cnt : nat) (ok : bool) (items : nat) (a : arr) (w : world) : outcome (bool * arr * world) :=
  let fin := used a + items in
  if size (blk a) <? fin then
    let max := used a * 3 / 2 in
    realloc cnt ok true (if max <? fin then fin else max) a w
  else Ok (false, a, w).
(** autoArray.tcc:56-74: freeExtra *)
Definition freeExtra (cnt : nat) (ok : bool) (a : arr) (w : world) : outcome (bool * arr * world) :=
  if used a <? size (blk a) then realloc cnt ok false (used a) a w else Ok (false, a, w).
(** autoArray.tcc:79-82: reserve *)
Definition reserve (cnt : nat) (ok : bool) (items : nat) (a : arr) (w : world) : outcome (bool * arr * world) :=
  if used a <? items then addExtra cnt ok (items - used a) a w else Ok (false, a, w).
(** autoArray.tcc:84-90: add *)
Definition add (cnt : nat) (ok : bool) (x : Z) (a : arr) (w : world) : outcome (bool * arr * world) :=
  let! (r, w) := addExtra cnt ok 1 a w in
  let '(thrown, a) := r : bool * arr in
  if thrown then Ok (true, a, w)
  else
    let! c := cells (blk a) w in
    let! c := setn (used a) [x] c in
    let (b, w) := store (blk a) c w in
    Ok (false, mkA b (used a + 1), w).
(** autoArray.tcc:168-184: trunc, erase at the end *)
Definition trunc (n : nat) (a : arr) : arr := mkA (blk a) (used a - (if used a <=? n then used a else n)).
(** autoArray.tcc:245-266: a.swap(b) for length of b not above length of a *)
Definition swap1 (cnt : nat) (ok : bool) (a b : arr) (w : world) : outcome (bool * arr * arr * world) :=
  let! (r, w) := reserve cnt ok (used a) b w in
  let '(thrown, b) := r : bool * arr in
  if thrown then Ok (true, a, b, w)
  else
    let! ca := cells (blk a) w in
    let! cb := cells (blk b) w in
    let! xa := getn 0 (used b) ca in
    let! xb := getn 0 (used b) cb in
    let! ya := getn (used b) (used a - used b) ca in
    let! ca := setn 0 xb ca in
    let! cb := setn 0 xa cb in
    let! cb := setn (used b) ya cb in
    let (ba, w) := store (blk a) ca w in
    let (bb, w) := store (blk b) cb w in
    Ok (false, mkA ba (used b), mkA bb (used a), w).
Definition swap (cnt : nat) (ok : bool) (a b : arr) (w : world) : outcome (bool * arr * arr * world) :=
  let '(done, ba, bb) := swapAM (blk a) (blk b) in
  if done then Ok (false, mkA ba (used b), mkA bb (used a), w)
  else if used a <? used b then
    let! (r, w) := swap1 cnt ok b a w in
    let '(thrown, b, a) := r : bool * arr * arr in Ok (thrown, a, b, w)
  else swap1 cnt ok a b w.

(** Two arrays; [second]: which one is used. *)
Record st := mkSt { fst_ : arr; snd_ : arr; wo : world }.
Definition init (cnt : nat) (r : bool) : st := mkSt (arr0 cnt r) (arr0 cnt r) (mkW [] 0).
Inductive op := Add (second ok : bool) (x : Z) | Reserve (second ok : bool) (n : nat) | FreeExtra (second ok : bool) | Trunc (second : bool) (n : nat)
  | Swap (second ok : bool).
Definition on (second : bool) (f : arr -> world -> outcome (bool * arr * world)) (s : st) : outcome (bool * st) :=
  let! (r, w) := f (if second then snd_ s else fst_ s) (wo s) in
  let '(t, a) := r : bool * arr in
  Ok (t, if second then mkSt (fst_ s) a w else mkSt a (snd_ s) w).
(** The result tells whether the operation threw. *)
Definition exec (cnt : nat) (o : op) (s : st) : outcome (bool * st) :=
  match o with
  | Add b ok x => on b (add cnt ok x) s
  | Reserve b ok n => on b (reserve cnt ok n) s
  | FreeExtra b ok => on b (freeExtra cnt ok) s
  | Trunc b n => on b (fun a w => Ok (false, trunc n a, w)) s
  | Swap b ok =>
      let! (r, w) := if b then swap cnt ok (snd_ s) (fst_ s) (wo s) else swap cnt ok (fst_ s) (snd_ s) (wo s) in
      let '(t, x, y) := r : bool * arr * arr in
      Ok (t, if b then mkSt y x w else mkSt x y w)
  end.
Fixpoint run (cnt : nat) (l : list op) (s : st) : outcome (list bool * st) :=
  match l with [] => Ok ([], s) | o :: t => let! (b, s) := exec cnt o s in let! (bs, s) := run cnt t s in Ok (b :: bs, s) end.
(** the items of an array *)
Definition items (a : arr) (w : world) : outcome (list Z) := let! c := cells (blk a) w in getn 0 (used a) c.
(** both arrays are destroyed *)
Definition destroy (s : st) : outcome world := let! w := dtor (blk (snd_ s)) (wo s) in dtor (blk (fst_ s)) w.
