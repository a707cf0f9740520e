(** Model of shared pointers without a counter: SharedResource
    (/repo/src/lightspeed/base/memory/sharedResource.h) and SharedPtr
    (/repo/src/lightspeed/base/memory/sharedPtr.h).

    All pointers that share an object are linked to a ring by [next].  As in
    RefCnt_Model.v a pointer variable is a slot, a member of an object or a
    variable of its own, and destroying an object destroys its members.  One
    thread; the allocator is plain new and delete. *)
From Verif Require Import Common RefCnt_Spec.

Record node := mkNode { nLive : bool; nOwner : option nat; nPtr : option nat; nNext : nat }.

(** [alive]: for each object whether it exists; [gone]: the objects whose
    destructor ran *)
Record world := mkWorld { alive : list bool; nodes : list node; gone : list nat }.
Definition emptyWorld := mkWorld [] [] [].

(** a variable that does not exist any more must not be used *)
Definition getN (h : world) (i : nat) : outcome node :=
  match nth_error (nodes h) i with
  | Some s => if nLive s then Ok s else Undef
  | None => Undef
  end.
Definition putN (h : world) (i : nat) (s : node) : world := mkWorld (alive h) (upd (nodes h) i s) (gone h).
Definition setNext (h : world) (i n : nat) : outcome world :=
  let! s := getN h i in Ok (putN h i (mkNode true (nOwner s) (nPtr s) n)).
Definition setVal (h : world) (i : nat) (p : option nat) : outcome world :=
  let! s := getN h i in Ok (putN h i (mkNode true (nOwner s) p (nNext s))).

(** the loop of removeItself, sharedResource.h:162-164 *)
Fixpoint findPrev (fuel : nat) (h : world) (i cur : nat) : outcome nat :=
  let! s := getN h cur in
  if nNext s =? i then Ok cur else
  match fuel with O => NoFuel | S f => findPrev f h i (nNext s) end.

(** removeItself, sharedResource.h:161-167 *)
Definition removeItself (h : world) (i : nat) : outcome world :=
  let! cur := findPrev (length (nodes h)) h i i in
  let! s := getN h i in
  let! h := setNext h cur (nNext s) in
  setNext h i i.

(** isShared, sharedResource.h:109-111 *)
Definition isSharedN (i : nat) (s : node) : bool := negb (nNext s =? i).

Definition memberOf (o : nat) (s : node) : bool :=
  nLive s && match nOwner s with Some x => x =? o | None => false end.

(** the members of an object *)
Fixpoint membersFrom (k : nat) (o : nat) (l : list node) : list nat :=
  match l with
  | [] => []
  | s :: l' => (if memberOf o s then [k] else []) ++ membersFrom (S k) o l'
  end.

Definition bury (h : world) (i : nat) (s : node) : world := putN h i (mkNode false (nOwner s) None i).

(** The destructors of a list of variables, one after another.  ~SharedPtr
    (sharedPtr.h:78-82) forgets a shared object, ~AllocPointer
    (allocPointer.h:68-70) destroys the object that is left, with its members,
    ~SharedResource (sharedResource.h:98-100) leaves the ring.  A variable that
    is alone has nothing to leave, so the model ends its life before the
    members are destroyed. *)
Fixpoint destroyAll (fuel : nat) (todo : list nat) (h : world) : outcome world :=
  match todo with
  | [] => Ok h
  | i :: rest =>
      match fuel with
      | O => NoFuel
      | S f =>
          let! s := getN h i in
          if isSharedN i s then
            let! h := removeItself h i in destroyAll f rest (bury h i s)
          else
            match nPtr s with
            | None => destroyAll f rest (bury h i s)
            | Some o =>
                match nth_error (alive h) o with
                | Some true =>
                    let h := bury h i s in
                    let h := mkWorld (upd (alive h) o false) (nodes h) (gone h ++ [o]) in
                    destroyAll f (membersFrom 0 o (nodes h) ++ rest) h
                | _ => Undef
                end
            end
      end
  end.
Definition destruct_ (h : world) (i : nat) : outcome world := destroyAll (S (length (nodes h))) [i] h.

(** the copy constructor in the memory of variable [i]: sharedPtr.h:21-22,
    sharedResource.h:46-48 *)
Definition copyInto (h : world) (i j : nat) : outcome world :=
  let! sj := getN h j in
  match nth_error (nodes h) i with
  | Some s =>
      let h := putN h i (mkNode true (nOwner s) (nPtr sj) (nNext sj)) in
      setNext h j i
  | None => Undef
  end.

Definition samePtr (a b : option nat) : bool :=
  match a, b with Some x, Some y => x =? y | None, None => true | _, _ => false end.

(** the loop of the assignment when both variables are in rings, sharedPtr.h:47-57:
    [None] when it found the other variable *)
Fixpoint searchRing (fuel : nat) (h : world) (i q : nat) (other : option nat) : outcome (option nat) :=
  let! s := getN h q in
  if nNext s =? i then Ok (Some q)
  else if samePtr (nPtr s) other then Ok None
  else match fuel with O => NoFuel | S f => searchRing f h i (nNext s) other end.

(** the assignment, sharedPtr.h:24-71, with makeAssign, sharedResource.h:203-210 *)
Definition sassign (h : world) (i j : nat) : outcome world :=
  if i =? j then Ok h else
  let! s := getN h i in
  let! sj := getN h j in
  if samePtr (nPtr s) (nPtr sj) then
    if negb (isSharedN i s) then
      let! h := setNext h i (nNext sj) in setNext h j i
    else if negb (isSharedN j sj) then
      let! h := setNext h j (nNext s) in setNext h i j
    else
      let! r := searchRing (length (nodes h)) h i i (nPtr sj) in
      match r with
      | None => Ok h
      | Some q => let! h := setNext h q (nNext sj) in setNext h j i
      end
  else
    let! h := destruct_ h i in copyInto h i j.

Definition addNode (h : world) (live : bool) (owner p : option nat) : world :=
  mkWorld (alive h) (nodes h ++ [mkNode live owner p (length (nodes h))]) (gone h).

(** members of a new object: null and alone *)
Fixpoint addMembers (m : nat) (o : nat) (h : world) : world :=
  match m with O => h | S m' => addMembers m' o (addNode h true (Some o) None) end.

(** swap of AllocPointer (allocPointer.h:244-249), which SharedPtr inherits: the
    objects are exchanged, the rings are not *)
Definition sswap (h : world) (i j : nat) : outcome world :=
  let! s := getN h i in
  let! sj := getN h j in
  let! h := setVal h i (nPtr sj) in setVal h j (nPtr s).

(** clear of AllocPointer (allocPointer.h:109-116), which SharedPtr inherits *)
Definition sclear (h : world) (i : nat) : outcome world :=
  let! s := getN h i in
  match nPtr s with
  | None => Ok h
  | Some o =>
      let! h := setVal h i None in
      match nth_error (alive h) o with
      | Some true =>
          let h := mkWorld (upd (alive h) o false) (nodes h) (gone h ++ [o]) in
          destroyAll (S (length (nodes h))) (membersFrom 0 o (nodes h)) h
      | _ => Undef
      end
  end.

(** The operations of the specification.  SharedPtr has no move of its own, and
    create is not modelled. *)
Definition spstep (op : pop) (h : world) : outcome (world * option bool) :=
  match op with
  | PNull => Ok (addNode h true None None, None)                     (* sharedPtr.h:14, 16 *)
  | PNew m =>                                                        (* sharedPtr.h:15 *)
      let o := length (alive h) in
      let h := addMembers m o (mkWorld (alive h ++ [true]) (nodes h) (gone h)) in
      Ok (addNode h true None (Some o), None)
  | PCopy j =>                                                       (* sharedPtr.h:21-22 *)
      let n := length (nodes h) in
      let! h := copyInto (addNode h false None None) n j in Ok (h, None)
  | PAssign i j => let! h := sassign h i j in Ok (h, None)
  | PDrop i => let! h := destruct_ h i in Ok (h, None)               (* sharedPtr.h:78-82 *)
  | PShared i => let! s := getN h i in Ok (h, Some (isSharedN i s))  (* sharedResource.h:109-111 *)
  | PSwap i j => let! h := sswap h i j in Ok (h, None)
  | PClear i => let! h := sclear h i in Ok (h, None)
  | PMoveNew _ | PMove _ _ | PCreate _ _ => Undef
  end.

Fixpoint sprun (ops : list pop) (h : world) : outcome (world * list (option bool)) :=
  match ops with
  | [] => Ok (h, [])
  | op :: ops' =>
      let! (h, a) := spstep op h in
      let! (h, l) := sprun ops' h in Ok (h, a :: l)
  end.

(** the variables of the ring of [i], in the order count and forEachInstance
    visit them, sharedResource.h:118-126, 179-187 *)
Fixpoint ringFrom (fuel : nat) (h : world) (i cur : nat) : outcome (list nat) :=
  let! s := getN h cur in
  if nNext s =? i then Ok [cur] else
  match fuel with
  | O => NoFuel
  | S f => let! l := ringFrom f h i (nNext s) in Ok (cur :: l)
  end.
Definition ringOf (h : world) (i : nat) : outcome (list nat) := ringFrom (length (nodes h)) h i i.

(** redirect, sharedPtr.h:73-76, 87-92 *)
Fixpoint setVals (l : list nat) (p : option nat) (h : world) : outcome world :=
  match l with [] => Ok h | k :: l' => let! h := setVal h k p in setVals l' p h end.
Definition redirect (h : world) (i : nat) (p : option nat) : outcome world :=
  let! l := ringOf h i in setVals l p h.
