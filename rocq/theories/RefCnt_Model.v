(** Model of counted pointers: RefCntPtr and RefCntObj
    (/repo/src/lightspeed/base/memory/refCntPtr.h) with the parts of AllocPointer
    (allocPointer.h) they use.

    An object has a counter; it may have members that are counted pointers, so
    destroying it destroys them.  A pointer variable is a slot: a member of an
    object or a variable of its own.  All operations run in one thread; the
    allocator is plain new and delete. *)
From Verif Require Import Common RefCnt_Spec.

Record slot := mkSlot { sLive : bool; sOwner : option nat; sPtr : option nat }.

(** an object: counter and whether it exists *)
Definition obj := (nat * bool)%type.

(** [destroyed] is the list of the objects whose destructor ran *)
Record heap := mkHeap { objs : list obj; slots : list slot; destroyed : list nat }.

Definition emptyHeap := mkHeap [] [] [].

Definition setSlot (h : heap) (i : nat) (s : slot) := mkHeap (objs h) (upd (slots h) i s) (destroyed h).
Definition setPtr (h : heap) (i : nat) (p : option nat) : outcome heap :=
  match nth_error (slots h) i with
  | Some s => if sLive s then Ok (setSlot h i (mkSlot true (sOwner s) p)) else Undef
  | None => Undef
  end.
(** reading the pointer of a variable that does not exist any more is undefined *)
Definition getPtr (h : heap) (i : nat) : outcome (option nat) :=
  match nth_error (slots h) i with
  | Some s => if sLive s then Ok (sPtr s) else Undef
  | None => Undef
  end.

(** addRef, refCntPtr.h:23-28 *)
Definition addRef (h : heap) (p : option nat) : outcome heap :=
  match p with
  | None => Ok h                                      (* addRefPtr, refCntPtr.h:287-291 *)
  | Some o =>
      match nth_error (objs h) o with
      | Some (c, true) => Ok (mkHeap (upd (objs h) o (S c, true)) (slots h) (destroyed h))
      | _ => Undef
      end
  end.

Definition isMember (o : nat) (s : slot) : bool :=
  sLive s && match sOwner s with Some x => x =? o | None => false end.

(** the destructor of an object: its members are destroyed, each releases what
    it points to; the answer is the list of these *)
Definition killMembers (h : heap) (o : nat) : heap * list nat :=
  (mkHeap (upd (objs h) o (0, false))
          (map (fun s => if isMember o s then mkSlot false (sOwner s) None else s) (slots h))
          (destroyed h ++ [o]),
   flat_map (fun s => if isMember o s then match sPtr s with Some t => [t] | None => [] end else []) (slots h)).

(** release (refCntPtr.h:34-39) and the destruction of the object when the
    counter reaches zero (refCntPtr.h:293-305, allocPointer.h:109-116), for a
    list of references one after another; members of a destroyed object are
    released before the rest.  The fuel is not in the code. *)
Fixpoint releaseAll (fuel : nat) (todo : list nat) (h : heap) : outcome heap :=
  match todo with
  | [] => Ok h
  | o :: rest =>
      match fuel with
      | O => NoFuel
      | S f =>
          match nth_error (objs h) o with
          | Some (S (S c), true) =>
              releaseAll f rest (mkHeap (upd (objs h) o (S c, true)) (slots h) (destroyed h))
          | Some (1, true) =>
              let (h, ts) := killMembers h o in releaseAll f (ts ++ rest) h
          | _ => Undef
          end
      end
  end.

Definition relPtr (h : heap) (p : option nat) : outcome heap :=
  match p with
  | None => Ok h
  | Some o => releaseAll (S (length (slots h))) [o] h
  end.

(** releasePtr, refCntPtr.h:293-305: the variable is null afterwards, whether
    the object is destroyed (clear, allocPointer.h:109-116: null first, then
    destroyed) or not (detach, allocPointer.h:92-96) *)
Definition releasePtr (h : heap) (i : nat) : outcome heap :=
  let! p := getPtr h i in
  let! h := setPtr h i None in
  relPtr h p.

(** The operations are those of the specification: the constructors, both
    assignments, clear, the destructor, swap, create and isShared. *)
Definition newSlot (h : heap) (owner p : option nat) : heap :=
  mkHeap (objs h) (slots h ++ [mkSlot true owner p]) (destroyed h).

(** a new object: counter 0 (refCntPtr.h:20) and its members *)
Definition newObj (h : heap) (members : nat) : heap * nat :=
  let o := length (objs h) in
  (mkHeap (objs h ++ [(0, true)]) (slots h ++ repeat (mkSlot true (Some o) None) members) (destroyed h), o).

Definition rstep (op : pop) (h : heap) : outcome (heap * option bool) :=
  match op with
  | PNull => Ok (newSlot h None None, None)                          (* refCntPtr.h:94 *)
  | PNew m =>                                                        (* refCntPtr.h:106-108 *)
      let (h, o) := newObj h m in
      let! h := addRef (newSlot h None (Some o)) (Some o) in Ok (h, None)
  | PCopy j =>                                                       (* refCntPtr.h:122-125 *)
      let! p := getPtr h j in
      let! h := addRef (newSlot h None p) p in Ok (h, None)
  | PMoveNew j =>                                                    (* refCntPtr.h:161-164 *)
      let! p := getPtr h j in
      let! h := setPtr (newSlot h None p) j None in Ok (h, None)
  | PAssign i j =>                                                   (* refCntPtr.h:150-156 *)
      let! p := getPtr h j in
      let! h := addRef h p in
      let! h := releasePtr h i in
      let! p := getPtr h j in
      let! h := setPtr h i p in Ok (h, None)
  | PMove i j =>                                                     (* refCntPtr.h:165-172 *)
      if i =? j then Ok (h, None) else
      let! h := releasePtr h i in
      let! p := getPtr h j in
      let! h := setPtr h i p in
      let! h := setPtr h j None in Ok (h, None)
  | PClear i => let! h := releasePtr h i in Ok (h, None)             (* refCntPtr.h:280-282 *)
  | PDrop i =>                                                       (* refCntPtr.h:135-137 *)
      match nth_error (slots h) i with
      | Some s =>
          if sLive s then
            let h1 := setSlot h i (mkSlot false (sOwner s) None) in
            let! h := relPtr h1 (sPtr s) in Ok (h, None)
          else Undef
      | None => Undef
      end
  | PSwap i j =>                                                     (* allocPointer.h:244-249 *)
      let! p := getPtr h i in
      let! q := getPtr h j in
      let! h := setPtr h i q in
      let! h := setPtr h j p in Ok (h, None)
  | PCreate i m =>                                                   (* refCntPtr.h:272 *)
      (* AllocPointer::create (allocPointer.h:135-139) starts with its own
         clear, which destroys the object whatever its counter is *)
      let! p := getPtr h i in
      let! h := setPtr h i None in
      let! h := match p with
                | None => Ok h
                | Some o =>
                    match nth_error (objs h) o with
                    | Some (_, true) => let (h, ts) := killMembers h o in releaseAll (S (length (slots h))) ts h
                    | _ => Undef
                    end
                end in
      let (h, o) := newObj h m in
      let! h := setPtr h i (Some o) in
      let! h := addRef h (Some o) in Ok (h, None)
  | PShared i =>                                                     (* refCntPtr.h:42, 210-213 *)
      let! p := getPtr h i in
      match p with
      | None => Ok (h, Some false)
      | Some o =>
          match nth_error (objs h) o with
          | Some (c, true) => Ok (h, Some (1 <? c))
          | _ => Undef
          end
      end
  end.

Fixpoint rrun (ops : list pop) (h : heap) : outcome (heap * list (option bool)) :=
  match ops with
  | [] => Ok (h, [])
  | op :: ops' =>
      let! (h, a) := rstep op h in
      let! (h, l) := rrun ops' h in Ok (h, a :: l)
  end.
