(** Model of AutoArray, src/lightspeed/base/containers/autoArray.h and autoArray.tcc, for items
    that are not primitive (ObjManipNonPOD, base/objmanip.h), with StdAlloc ([limit] is [None]) or
    StaticAlloc<c> ([limit] is [Some c]).

    Memory is a list of cells; a cell holds an object or is raw.  Reading or destroying what is
    not there and constructing over a living object are [Undef].  Every construction of an
    object from another may throw; [budget] says which one does (at most one in a run).  Running
    out of memory is not modelled; sizes do not wrap around, except in erase. *)
From Verif Require Import Common AutoArray_Spec.

Record env := mkEnv { budget : option nat; moves : nat; allocs : nat }.

Section Model.
  Context {T : Type} (dflt : T) (limit : option nat).
  (** whether the i-th allocated block lies above the block it replaces *)
  Variable above : nat -> bool.

  Notation mem := (list (option T)).

  (** allocBk and usedSz, autoArray.h:294-295 *)
  Record arr := mkArr { cells : mem; used : nat }.

  (** AutoArrayT(), autoArray.tcc:20, with StdAlloc::AllocatedMemory and StaticAlloc::AllocatedMemory,
      memory/stdAlloc.h:58-59, memory/staticAlloc.h:30-40 *)
  Definition init : arr := mkArr (match limit with None => [] | Some c => repeat None c end) 0.

  (** whether the next construction succeeds *)
  Definition spend (e : env) : bool * env :=
    match budget e with
    | Some O => (false, mkEnv None (moves e) (allocs e))
    | Some (S b) => (true, mkEnv (Some b) (moves e) (allocs e))
    | None => (true, e)
    end.

  (** new(target) T(x) *)
  Definition copyTo (e : env) (x : T) (m : mem) (i : nat) : outcome (bool * env * mem) :=
    match nth_error m i with
    | Some None =>
        let (ok, e1) := spend e in Ok (ok, e1, if ok : bool then upd m i (Some x) else m)
    | _ => Undef
    end.

  (** destructOne, objmanip.h:229-231 *)
  Definition destroyAt (m : mem) (i : nat) : outcome mem :=
    match nth_error m i with Some (Some _) => Ok (upd m i None) | _ => Undef end.

  (** destruct, objmanip.h:214-226; destructors do not throw *)
  Fixpoint destroyRange (m : mem) (at_ n : nat) : outcome mem :=
    match n with
    | O => Ok m
    | S j => let! m1 := destroyAt m (at_ + j) in destroyRange m1 at_ j
    end.

  (** moveOne, objmanip.h:206-212, and MoveObject::doMove, containers/move.h:47-51 *)
  Definition moveOne (e : env) (m : mem) (src dst : nat) : outcome (bool * env * mem) :=
    match nth_error m src with
    | Some (Some x) =>
        let! (ok, e1, m1) := copyTo e x m dst in
        if ok then let! m2 := destroyAt m1 src in Ok (true, mkEnv (budget e1) (S (moves e1)) (allocs e1), m2)
        else Ok (false, e1, m1)
    | _ => Undef
    end.

  (** the two loops of move, objmanip.h:189-201; the number is the [r.q] of the rollback *)
  Fixpoint moveFwd (e : env) (m : mem) (src dst i n : nat) : outcome (option nat * env * mem) :=
    match n with
    | O => Ok (None, e, m)
    | S j =>
        let! (ok, e1, m1) := moveOne e m (src + i) (dst + i) in
        if ok then moveFwd e1 m1 src dst (S i) j else Ok (Some i, e1, m1)
    end.
  Fixpoint moveBack (e : env) (m : mem) (src dst i : nat) : outcome (option nat * env * mem) :=
    match i with
    | O => Ok (None, e, m)
    | S j =>
        let! (ok, e1, m1) := moveOne e m (src + j) (dst + j) in
        if ok then moveBack e1 m1 src dst j else Ok (Some i, e1, m1)
    end.
  (** the rollback; an exception inside it would end the program *)
  Definition noThrow (r : outcome (option nat * env * mem)) : outcome (bool * env * mem) :=
    let! (q, e, m) := r in match q with None => Ok (false, e, m) | Some _ => Undef end.

  (** move, objmanip.h:183-204, with MoveRollback, objmanip.h:137-152; true: done, false: thrown
      after the rollback *)
  Definition moveItems (e : env) (m : mem) (src count dst : nat) : outcome (bool * env * mem) :=
    if dst <? src then
      let! (q, e1, m1) := moveFwd e m src dst 0 count in
      match q with
      | None => Ok (true, e1, m1)
      | Some q => noThrow (moveBack e1 m1 dst src q)
      end
    else
      let! (q, e1, m1) := moveBack e m src dst count in
      match q with
      | None => Ok (true, e1, m1)
      | Some q => noThrow (moveFwd e1 m1 (dst + q) (src + q) 0 (count - q))
      end.

  (** a new block of [size] cells, to which the [n] first items of the old one are moved,
      autoArray.tcc:37-46 and 61-70; the old block is freed.  If moving throws the new block is *)
  Definition realloc (e : env) (m : mem) (n size : nat) : outcome (bool * env * mem) :=
    let e := mkEnv (budget e) (moves e) (S (allocs e)) in
    if above (allocs e) then
      let! (ok, e1, m1) := moveItems e (m ++ repeat None size) 0 n (length m) in
      Ok (ok, e1, if ok then skipn (length m) m1 else firstn (length m) m1)
    else
      let! (ok, e1, m1) := moveItems e (repeat None size ++ m) size n 0 in
      Ok (ok, e1, if ok then firstn size m1 else skipn size m1).

  (** addExtra, autoArray.tcc:24-54; for StaticAlloc the temporary block throws,
      staticAlloc.h:42-45 *)
  Definition addExtra (e : env) (a : arr) (items : nat) : outcome (bool * env * arr) :=
    let fin := used a + items in
    if length (cells a) <? fin then
      match limit with
      | Some _ => Ok (false, e, a)
      | None =>
          let! (ok, e1, m) := realloc e (cells a) (used a) (Nat.max (used a * 3 / 2) fin) in
          Ok (ok, e1, mkArr m (used a))
      end
    else Ok (true, e, a).

  (** freeExtra, autoArray.tcc:56-74; with StaticAlloc nothing can be moved *)
  Definition freeExtra (e : env) (a : arr) : outcome (bool * env * arr) :=
    if used a <? length (cells a) then
      match limit with
      | Some _ => Ok (true, e, a)
      | None => let! (ok, e1, m) := realloc e (cells a) (used a) (used a) in Ok (ok, e1, mkArr m (used a))
      end
    else Ok (true, e, a).

  (** reserve, autoArray.tcc:79-81 *)
  Definition reserve (e : env) (a : arr) (items : nat) : outcome (bool * env * arr) :=
    if used a <? items then addExtra e a (items - used a) else Ok (true, e, a).

  (** new(getBase() + usedSz) T(item); ++usedSz, autoArray.tcc:86-87 and 96-97 *)
  Definition push (e : env) (a : arr) (x : T) : outcome (bool * env * arr) :=
    let! (ok, e1, m) := copyTo e x (cells a) (used a) in
    Ok (ok, e1, if ok then mkArr m (S (used a)) else mkArr m (used a)).

  (** add, autoArray.tcc:84-89 *)
  Definition add (e : env) (a : arr) (x : T) : outcome (bool * env * arr) :=
    let! (ok, e1, a1) := addExtra e a 1 in
    if ok then push e1 a1 x else Ok (false, e1, a1).

  (** the loop of add with a count, autoArray.tcc:95-98 *)
  Fixpoint pushN (e : env) (a : arr) (x : T) (n : nat) : outcome (bool * env * arr) :=
    match n with
    | O => Ok (true, e, a)
    | S j => let! (ok, e1, a1) := push e a x in if ok then pushN e1 a1 x j else Ok (false, e1, a1)
    end.
  (** add with a count, autoArray.tcc:93-99 *)
  Definition addN (e : env) (a : arr) (x : T) (count : nat) : outcome (bool * env * arr) :=
    let! (ok, e1, a1) := addExtra e a count in
    if ok then pushN e1 a1 x count else Ok (false, e1, a1).

  (** append of a list with another array's items, autoArray.tcc:270-276 *)
  Fixpoint addAll (e : env) (a : arr) (l : list T) : outcome (bool * env * arr) :=
    match l with
    | [] => Ok (true, e, a)
    | x :: r => let! (ok, e1, a1) := add e a x in if ok then addAll e1 a1 r else Ok (false, e1, a1)
    end.
  Definition append (e : env) (a : arr) (l : list T) : outcome (bool * env * arr) :=
    let! (ok, e1, a1) := addExtra e a (length l) in
    if ok then addAll e1 a1 l else Ok (false, e1, a1).

  (** construct<T> with the default constructor, objmanip.h:245-254; [k] objects are there *)
  Fixpoint constructD (e : env) (m : mem) (at_ k n : nat) : outcome (bool * env * mem) :=
    match n with
    | O => Ok (true, e, m)
    | S j =>
        let! (ok, e1, m1) := copyTo e dflt m (at_ + k) in
        if ok then constructD e1 m1 at_ (S k) j
        else let! m2 := destroyRange m1 at_ k in Ok (false, e1, m2)
    end.

  (** reserveAt, autoArray.tcc:193-205: exceptions while moving are swallowed *)
  Definition reserveAt (e : env) (a : arr) (pos count : nat) : outcome (bool * env * arr) :=
    let! (ok, e1, a1) := addExtra e a count in
    if ok then
      let! (_, e2, m) := moveItems e1 (cells a1) pos (used a1 - pos) (pos + count) in
      Ok (true, e2, mkArr m (used a1 + count))
    else Ok (false, e1, a1).

  (** unreserveAt, autoArray.tcc:208-218 *)
  Definition unreserveAt (e : env) (a : arr) (pos count : nat) : outcome (bool * env * arr) :=
    let! (ok, e1, m) := moveItems e (cells a) (pos + count) (used a - pos - count) pos in
    Ok (ok, e1, mkArr m (if ok then used a - count else used a)).

  (** erase, autoArray.tcc:168-178; at+count is computed modulo 2^64 *)
  Definition erase (e : env) (a : arr) (at_ : nat) (count : N) : outcome (bool * env * arr) :=
    if used a <? at_ then Ok (false, e, a)
    else
      let count := if (N.of_nat (used a) <? (N.of_nat at_ + count) mod 2 ^ 64)%N then used a - at_ else N.to_nat count in
      if count =? 0 then Ok (true, e, a)
      else
        let! m := destroyRange (cells a) at_ count in
        unreserveAt e (mkArr m (used a)) at_ count.

  (** trunc, autoArray.tcc:181-184, and clear, 188-190 *)
  Definition trunc (e : env) (a : arr) (count : nat) : outcome (bool * env * arr) :=
    let count := if used a <=? count then used a else count in
    erase e a (used a - count) (N.of_nat count).
  Definition clear (e : env) (a : arr) : outcome (bool * env * arr) := trunc e a (used a).

  (** resize, autoArray.tcc:102-109 and 112-115 *)
  Definition resizeD (e : env) (a : arr) (items : nat) : outcome (bool * env * arr) :=
    if used a <? items then
      let n := items - used a in
      let! (ok, e1, a1) := addExtra e a n in
      if ok then
        let! (ok, e2, m) := constructD e1 (cells a1) (used a1) 0 n in
        Ok (ok, e2, mkArr m (if ok then used a1 + n else used a1))
      else Ok (false, e1, a1)
    else if items <? used a then trunc e a (used a - items)
    else Ok (true, e, a).
  Definition resize (e : env) (a : arr) (items : nat) (x : T) : outcome (bool * env * arr) :=
    if used a <? items then addN e a x (items - used a)
    else if items <? used a then trunc e a (used a - items)
    else Ok (true, e, a).

  (** WriteInsertIter, autoArray.h:201-238: write the items at [pos], with [n] places reserved;
      at the end, or when writing throws, the rest of the places is given back *)
  Fixpoint writeIns (e : env) (a : arr) (pos n : nat) (l : list T) : outcome (bool * env * arr) :=
    match l with
    | [] => if n =? 0 then Ok (true, e, a) else unreserveAt e a pos n
    | x :: r =>
        match n with
        | O => Ok (false, e, a)
        | S j =>
            let! (ok, e1, m) := copyTo e x (cells a) pos in
            if ok then writeIns e1 (mkArr m (used a)) (S pos) j r
            else let! (_, e2, a2) := unreserveAt e1 (mkArr m (used a)) pos n in Ok (false, e2, a2)
        end
    end.
  Definition insertIter (e : env) (a : arr) (at_ n : nat) (l : list T) : outcome (bool * env * arr) :=
    let! (ok, e1, a1) := reserveAt e a at_ n in
    if ok then writeIns e1 a1 at_ n l else Ok (false, e1, a1).

  (** insert, autoArray.tcc:123-130, and insertArray, 134-141 *)
  Definition insert (e : env) (a : arr) (at_ : nat) (x : T) (count : nat) : outcome (bool * env * arr) :=
    if used a <? at_ then Ok (false, e, a)
    else if at_ =? used a then addN e a x count
    else insertIter e a at_ count (repeat x count).
  Definition insertArray (e : env) (a : arr) (at_ : nat) (l : list T) : outcome (bool * env * arr) :=
    if used a <? at_ then Ok (false, e, a)
    else if at_ =? used a then append e a l
    else insertIter e a at_ (length l) l.

  (** data()[i] and data()[i] = x, containers/flatArray.h:129-130; what a throwing assignment
      leaves is the old value *)
  Definition get (a : arr) (i : nat) : outcome T :=
    match nth_error (cells a) i with Some (Some x) => Ok x | _ => Undef end.
  Definition set (e : env) (a : arr) (i : nat) (x : T) : outcome (bool * env * arr) :=
    match nth_error (cells a) i with
    | Some (Some _) =>
        let (ok, e1) := spend e in Ok (ok, e1, if ok : bool then mkArr (upd (cells a) i (Some x)) (used a) else a)
    | _ => Undef
    end.

  Definition run1 (e : env) (a : arr) (o : aop T) : outcome (answer T * env * arr) :=
    let st r := (let! (ok, e1, a1) := r in Ok (if ok : bool then Done else Failed, e1, a1)) in
    match o with
    | Add x => st (add e a x)
    | AddN x n => st (addN e a x n)
    | Append l => st (append e a l)
    | Resize n x => st (resize e a n x)
    | ResizeD n => st (resizeD e a n)
    | Insert at_ x n => st (insert e a at_ x n)
    | InsertArray at_ l => st (insertArray e a at_ l)
    | Erase at_ n => st (erase e a at_ n)
    | Trunc n => st (trunc e a n)
    | Clear => st (clear e a)
    | Reserve n => st (reserve e a n)
    | FreeExtra => st (freeExtra e a)
    | Get i => let! x := get a i in Ok (Item x, e, a)
    | Set_ i x => st (set e a i x)
    end.

  Fixpoint run (e : env) (a : arr) (os : list (aop T)) : outcome (list (answer T) * env * arr) :=
    match os with
    | [] => Ok ([], e, a)
    | o :: r =>
        let! (x, e1, a1) := run1 e a o in
        let! (xs, e2, a2) := run e1 a1 r in Ok (x :: xs, e2, a2)
    end.

  (** ** Two arrays *)

  (** copy constructor, autoArray.tcc:222-225; [b] is the content of the other array *)
  Definition copyOf (e : env) (b : list T) : outcome (bool * env * arr) :=
    append e (mkArr (match limit with None => repeat None (length b) | Some c => repeat None c end) 0) b.

  (** operator=, autoArray.tcc:228-237 *)
  Definition assign (e : env) (a : arr) (b : list T) : outcome (bool * env * arr) :=
    let! (ok, e1, a1) := clear e a in
    if ok then
      match b with
      | [] => Ok (true, e1, a1)
      | _ =>
          let! (ok, e2, a2) := reserve e1 a1 (length b) in
          if ok then addAll e2 a2 b else Ok (false, e2, a2)
      end
    else Ok (false, e1, a1).
  (** operator= with the array itself: its length is taken after clear *)
  Definition assignSelf (e : env) (a : arr) : outcome (bool * env * arr) :=
    let! (ok, e1, a1) := clear e a in
    if ok then
      if used a1 =? 0 then Ok (true, e1, a1) else Undef
    else Ok (false, e1, a1).

  (** add with a reference to an item of the array itself, autoArray.tcc:84-89: when the block
      was replaced the reference points into freed memory *)
  Definition addSelf (e : env) (a : arr) (i : nat) : outcome (bool * env * arr) :=
    let! (ok, e1, a1) := addExtra e a 1 in
    if ok then
      if length (cells a) <? used a + 1 then Undef
      else let! x := get a1 i in push e1 a1 x
    else Ok (false, e1, a1).
  (** insert of one item with a reference to an item of the array itself, autoArray.tcc:118-120 *)
  Definition insertSelf (e : env) (a : arr) (at_ i : nat) : outcome (bool * env * arr) :=
    if used a <? at_ then Ok (false, e, a)
    else if at_ =? used a then addSelf e a i
    else
      let! (ok, e1, a1) := reserveAt e a at_ 1 in
      if ok then
        if length (cells a) <? used a + 1 then Undef
        else let! x := get a1 i in writeIns e1 a1 at_ 1 [x]
      else Ok (false, e1, a1).

  (** append of the array itself, autoArray.tcc:270-276: the iterator asks the array for its
      length before each item, containers/arrayt.h:87-91 *)
  Fixpoint appendSelfLoop (fuel : nat) (e : env) (a : arr) (pos : nat) : outcome (bool * env * arr) :=
    match fuel with
    | O => NoFuel
    | S f =>
        if pos <? used a then
          let! (ok, e1, a1) := addSelf e a pos in
          if ok then appendSelfLoop f e1 a1 (S pos) else Ok (false, e1, a1)
        else Ok (true, e, a)
    end.
  Definition appendSelf (fuel : nat) (e : env) (a : arr) : outcome (bool * env * arr) :=
    let! (ok, e1, a1) := addExtra e a (used a) in
    if ok then appendSelfLoop fuel e1 a1 0 else Ok (false, e1, a1).
End Model.
