(** Model of Deque, src/lightspeed/base/containers/deque.{h,tcc}, with the allocator
    StdAlloc, and of Queue and Stack on top of it.  A cell of the memory block is [Some x]
    while it holds a constructed object and [None] while it is raw memory; constructing
    over an object, destroying or reading raw memory is undefined behaviour.  Sizes are
    unbounded numbers; allocation does not fail; constructors do not throw. *)
From Verif Require Import Common.

Section Deque.
  Context {A : Type}.

  Definition cells := list (option A).
  (** deque.h:70-82 *)
  Record deque := mkDeque { mem : cells; dhead : nat; dtail : nat }.

  (** deque.tcc:21-25 *)
  Definition dempty_new : deque := mkDeque [] 0 0.

  Definition size (d : deque) : nat := length (mem d).

  (** deque.tcc:59-66 *)
  Definition dlength (d : deque) : nat :=
    if negb (dhead d =? 0) && (dhead d <=? dtail d) then dhead d + size d - dtail d
    else dhead d - dtail d.

  (** deque.tcc:94-97 and 100-103 *)
  Definition isFull (d : deque) : bool := dlength d =? size d.
  Definition dempty (d : deque) : bool := dhead d =? 0.

  (** access to one cell *)
  Definition readCell (m : cells) (i : nat) : outcome A :=
    match nth_error m i with Some (Some x) => Ok x | _ => Undef end.
  Definition construct (m : cells) (i : nat) (x : A) : outcome cells :=
    match nth_error m i with Some None => Ok (upd m i (Some x)) | _ => Undef end.
  Definition destroy (m : cells) (i : nat) : outcome cells :=
    match nth_error m i with Some (Some _) => Ok (upd m i None) | _ => Undef end.
  (** index modulo size; a modulus of zero is undefined *)
  Definition modIndex (i sz : nat) : outcome nat := if sz =? 0 then Undef else Ok (i mod sz).

  (** deque.tcc:184-190: moving [count] items to the start of the new block; the source cell is
      destroyed, but the old block is freed afterwards and not modelled *)
  Fixpoint moveItems (old : cells) (new : cells) (wrap offset i count : nat) : outcome cells :=
    match count with
    | O => Ok new
    | S c =>
        let! src := modIndex (offset + i) wrap in
        let! x := readCell old src in
        let! new := construct new i x in
        moveItems old new wrap offset (S i) c
    end.

  (** deque.tcc:171-225 *)
  Definition internalResize (d : deque) (reqSz curSz : nat) : outcome deque :=
    let! new := moveItems (mem d) (repeat None reqSz) (size d) (dtail d) 0 curSz in
    Ok (mkDeque new curSz 0).

  (** deque.tcc:228-237 *)
  Definition reserve (d : deque) (count : nat) : outcome (bool * deque) :=
    let sz := dlength d in
    if sz <? count then let! d := internalResize d count sz in Ok (true, d) else Ok (false, d).

  (** deque.tcc:240-248 *)
  Definition tryExpand (d : deque) : outcome deque :=
    let curLen := dlength d in
    let newSz := if curLen =? 0 then 1 else curLen + (curLen + 1) / 2 in
    let! (ok, d) := reserve d newSz in
    if ok : bool then Ok d else Throw.

  (** deque.tcc:70-77 *)
  Definition pushFront (d : deque) (x : A) : outcome deque :=
    let! d := (if isFull d then tryExpand d else Ok d) in
    let! at_ := modIndex (dhead d) (size d) in
    let! m := construct (mem d) at_ x in
    Ok (mkDeque m (at_ + 1) (dtail d)).

  (** deque.tcc:81-90 *)
  Definition pushBack (d : deque) (x : A) : outcome deque :=
    let! d := (if isFull d then tryExpand d else Ok d) in
    let memSz := size d in
    let head := if dhead d =? 0 then memSz else dhead d in
    let! at_ := modIndex (dtail d + memSz - 1) memSz in
    let! m := construct (mem d) at_ x in
    Ok (mkDeque m head at_).

  (** deque.tcc:106-131 *)
  Definition getBack (d : deque) : outcome A := if dempty d then Throw else readCell (mem d) (dtail d).
  Definition getFront (d : deque) : outcome A := if dempty d then Throw else readCell (mem d) (dhead d - 1).

  (** deque.tcc:134-144 *)
  Definition popFront (d : deque) : outcome deque :=
    if dempty d then Throw
    else
      let head := dhead d - 1 in
      let! (h, t) := (if head =? dtail d then Ok (0, 0)
                      else let! i := modIndex (head + size d - 1) (size d) in Ok (i + 1, dtail d)) in
      let! m := destroy (mem d) head in
      Ok (mkDeque m h t).

  (** deque.tcc:147-156 *)
  Definition popBack (d : deque) : outcome deque :=
    if dempty d then Throw
    else
      let tail := dtail d + 1 in
      let! (h, t) := (if dhead d =? tail then Ok (0, 0)
                      else let! i := modIndex tail (size d) in Ok (dhead d, i)) in
      let! m := destroy (mem d) (dtail d) in
      Ok (mkDeque m h t).

  (** deque.tcc:43-48 and 51-56; set (36-40) assigns through the reference *)
  Definition dat (d : deque) (index : nat) : outcome A :=
    if dlength d <=? index then Throw
    else let! i := modIndex (index + dtail d) (size d) in readCell (mem d) i.
  Definition dset (d : deque) (index : nat) (x : A) : outcome deque :=
    if dlength d <=? index then Throw
    else
      let! i := modIndex (index + dtail d) (size d) in
      let! _ := readCell (mem d) i in
      Ok (mkDeque (upd (mem d) i (Some x)) (dhead d) (dtail d)).

  (** deque.tcc:251-256 *)
  Fixpoint dclear (fuel : nat) (d : deque) : outcome deque :=
    if dempty d then Ok d
    else match fuel with O => NoFuel | S f => let! d := popFront d in dclear f d end.

  (** deque.tcc:259-282, the destructor; the result is the memory left behind *)
  Fixpoint destroyAll (m : cells) (wrap offset i count : nat) : outcome cells :=
    match count with
    | O => Ok m
    | S c => let! j := modIndex (offset + i) wrap in let! m := destroy m j in destroyAll m wrap offset (S i) c
    end.
  Definition ddestroy (d : deque) : outcome cells := destroyAll (mem d) (size d) (dtail d) 0 (dlength d).

  (** The copy constructor the compiler generates: the memory block is copied by
      base/memory/stdAlloc.h:52-53, which allocates a raw block of the same size, and head
      and tail are copied. *)
  Definition dcopy (d : deque) : deque := mkDeque (repeat None (size d)) (dhead d) (dtail d).
End Deque.
Arguments deque : clear implicits.
Arguments cells : clear implicits.

(** ** Programs using the deque *)
From Verif Require Import Deque_Spec.
Section Run.
  Context {A : Type}.

  (** a failed operation leaves the deque as it was *)
  Definition unit_op (d : deque A) (r : outcome (deque A)) : outcome (answer A * deque A) :=
    match r with Ok d' => Ok (Done, d') | Throw => Ok (Failed, d) | Undef => Undef | NoFuel => NoFuel end.
  Definition item_op (d : deque A) (r : outcome A) : outcome (answer A * deque A) :=
    match r with Ok x => Ok (Item x, d) | Throw => Ok (Failed, d) | Undef => Undef | NoFuel => NoFuel end.

  Definition step (d : deque A) (o : dop A) : outcome (answer A * deque A) :=
    match o with
    | DPushFront x => unit_op d (pushFront d x)
    | DPushBack x => unit_op d (pushBack d x)
    | DPopFront => unit_op d (popFront d)
    | DPopBack => unit_op d (popBack d)
    | DGetFront => item_op d (getFront d)
    | DGetBack => item_op d (getBack d)
    | DAt i => item_op d (dat d i)
    | DSet i x => unit_op d (dset d i x)
    | DLength => Ok (Number (dlength d), d)
    | DEmpty => Ok (Flag (dempty d), d)
    | DClear => unit_op d (dclear (S (dlength d)) d)
    | DReserve n => let! (b, d) := reserve d n in Ok (Flag b, d)
    end.

  Fixpoint run (d : deque A) (os : list (dop A)) : outcome (list (answer A) * deque A) :=
    match os with
    | [] => Ok ([], d)
    | o :: os => let! (a, d) := step d o in let! (r, d) := run d os in Ok (a :: r, d)
    end.

  (** queue.h:23-31 and stack.h:24-34: [Some x] is push, [None] is "if not empty then top, pop";
      the result is the list of items taken and the final state *)
  Fixpoint queueRun (d : deque A) (os : list (option A)) : outcome (list A * deque A) :=
    match os with
    | [] => Ok ([], d)
    | Some x :: os => let! d := pushBack d x in queueRun d os
    | None :: os =>
        if dempty d then queueRun d os
        else let! x := getFront d in let! d := popFront d in
             let! (r, d) := queueRun d os in Ok (x :: r, d)
    end.
  Fixpoint stackRun (d : deque A) (os : list (option A)) : outcome (list A) :=
    match os with
    | [] => Ok []
    | Some x :: os => let! d := pushBack d x in stackRun d os
    | None :: os =>
        if dempty d then stackRun d os
        else let! x := getBack d in let! d := popBack d in let! r := stackRun d os in Ok (x :: r)
    end.
End Run.
