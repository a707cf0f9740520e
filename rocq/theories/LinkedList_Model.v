(** Model of the singly linked list of
    /repo/src/lightspeed/base/containers/linkedList.h.

    Nodes live in an explicit memory indexed by address.  Simplifications: an address is never
    given out twice, so a use of a destroyed node always shows as [Undef] (in the program it
    may also hit a node created later); the allocator never fails; constructing and destroying
    a value has no other effect. *)
From Verif Require Import Common LinkedList_Spec.

Section LinkedList.
  Context {A : Type}.

  (** struct ListItem: value and next.  linkedList.h:42-47 *)
  Definition node : Type := A * option nat.

  (** memory; [None] is a destroyed node *)
  Definition mem := list (option node).

  (** dereferencing a pointer; 0 is [None] *)
  Definition load (m : mem) (p : option nat) : outcome node :=
    match p with
    | None => Undef
    | Some a => match nth_error m a with Some (Some n) => Ok n | _ => Undef end
    end.

  (** p->next = v *)
  Definition setNext (m : mem) (p : option nat) (v : option nat) : outcome mem :=
    match p with
    | None => Undef
    | Some a => let! n := load m p in Ok (upd m a (Some (fst n, v)))
    end.

  (** fact->createInstanceUsing<ListItem,T>(val).  linkedList.h:140, 46 *)
  Definition create (m : mem) (v : A) : mem * option nat := (m ++ [Some (v, None)], Some (length m)).

  (** fact->destroyInstance(x).  linkedList.h:247, 264 *)
  Definition destroy (m : mem) (p : option nat) : outcome mem :=
    match p with
    | None => Undef
    | Some a => let! _ := load m p in Ok (upd m a None)
    end.

  (** the members first and last.  linkedList.h:357-358 *)
  Record lst := L { first : option nat; last : option nat }.

  (** Iterator: cur and prev.  linkedList.h:62-66, 97-98 *)
  Record iter := It { cur : option nat; prev : option nat }.

  Definition same (p q : option nat) : bool :=
    match p, q with
    | None, None => true
    | Some a, Some b => a =? b
    | _, _ => false
    end.

  Definition isNull (p : option nat) : bool := match p with None => true | _ => false end.

  (** LinkedList().  linkedList.h:51 *)
  Definition empty_list : lst := L None None.

  (** getFwIter.  linkedList.h:300-302 *)
  Definition getFwIter (l : lst) : iter := It (first l) None.

  (** Iterator::getNext.  linkedList.h:68-73 *)
  Definition getNext (m : mem) (i : iter) : outcome (A * iter) :=
    if isNull (cur i) then Throw
    else let! n := load m (cur i) in Ok (fst n, It (snd n) (cur i)).

  (** Iterator::peek.  linkedList.h:74-77 *)
  Definition peek (m : mem) (i : iter) : outcome A :=
    if isNull (cur i) then Throw else let! n := load m (cur i) in Ok (fst n).

  (** insertFirst(const T &), insertFirst(ListItem pointer).  linkedList.h:139-142, 183-188 *)
  Definition insertFirstItem (m : mem) (l : lst) (item : option nat) : outcome (mem * lst * iter) :=
    let! m := setNext m item (first l) in
    Ok (m, L item (if isNull (last l) then item else last l), It item None).

  Definition insertFirst (m : mem) (l : lst) (v : A) : outcome (mem * lst * iter) :=
    let (m, item) := create m v in insertFirstItem m l item.

  (** insertAfter.  linkedList.h:150-154, 196-202 *)
  Definition insertAfter (m : mem) (l : lst) (i : iter) (v : A) : outcome (mem * lst * iter) :=
    if isNull (cur i) then Throw
    else
      let (m, item) := create m v in
      let! n := load m (cur i) in
      let! m := setNext m item (snd n) in
      let! m := setNext m (cur i) item in
      Ok (m, L (first l) (if same (cur i) (last l) then item else last l), It item None).

  (** insertBefore; the iterator given by the caller is changed too (line 216), it is the
      third component of the result.  linkedList.h:161-165, 210-218 *)
  Definition insertBefore (m : mem) (l : lst) (i : iter) (v : A)
    : outcome (mem * lst * iter * iter) :=
    if isNull (cur i) then Throw
    else
      let (m, item) := create m v in
      if isNull (prev i) then
        let! (m, l, r) := insertFirstItem m l item in Ok (m, l, i, r)
      else
        let! m := setNext m item (cur i) in
        let! m := setNext m (prev i) item in
        Ok (m, l, It (cur i) item, It item None).

  (** add.  linkedList.h:173-176, 222-230 *)
  Definition add (m : mem) (l : lst) (v : A) : outcome (mem * lst * iter) :=
    let (m, x) := create m v in
    let! m := setNext m x None in
    if isNull (last l) then Ok (m, L x x, It x None)
    else
      let! m := setNext m (last l) x in
      Ok (m, L (first l) x, It x None).

  (** removeFirst.  linkedList.h:233-242 *)
  Definition removeFirst (m : mem) (l : lst) : outcome (lst * option nat) :=
    if isNull (first l) then Ok (l, None)
    else
      let! n := load m (first l) in
      Ok (L (snd n) (if isNull (snd n) then None else last l), first l).

  (** eraseFirst.  linkedList.h:245-248 *)
  Definition eraseFirst (m : mem) (l : lst) : outcome (mem * lst) :=
    let! (l, x) := removeFirst m l in
    if isNull x then Ok (m, l) else let! m := destroy m x in Ok (m, l).

  (** remove(iter).  linkedList.h:251-258 *)
  Definition remove (m : mem) (l : lst) (i : iter) : outcome (mem * lst * option nat) :=
    if isNull (prev i) then let! (l, x) := removeFirst m l in Ok (m, l, x)
    else
      let! n := load m (cur i) in
      let! m := setNext m (prev i) (snd n) in
      let! m := setNext m (cur i) None in
      Ok (m, l, cur i).

  (** erase(iter).  linkedList.h:261-269 *)
  Definition erase (m : mem) (l : lst) (i : iter) : outcome (mem * lst * iter) :=
    let! (m, l, rem) := remove m l i in
    if isNull rem then Ok (m, l, It rem None)
    else
      let! m := destroy m rem in
      if isNull (prev i) then Ok (m, l, getFwIter l)
      else let! n := load m (prev i) in Ok (m, l, It (snd n) (prev i)).

  (** getFirst.  linkedList.h:272-276, 286-290 *)
  Definition getFirst (m : mem) (l : lst) : outcome A :=
    if isNull (first l) then Throw else let! n := load m (first l) in Ok (fst n).

  (** getLast of a list that is not const.  linkedList.h:293-297 *)
  Definition getLast (m : mem) (l : lst) : outcome A :=
    if isNull (last l) then Throw else let! n := load m (last l) in Ok (fst n).

  (** getLast of a const list.  linkedList.h:279-283 *)
  Definition getLastConst (m : mem) (l : lst) : outcome A :=
    if isNull (last l) then Throw else let! n := load m (first l) in Ok (fst n).

  (** empty.  linkedList.h:305 *)
  Definition empty (l : lst) : bool := isNull (first l).

  (** The loops below visit the nodes from an iterator to the end; [fuel] bounds them in the
      model only. *)

  (** clear.  linkedList.h:309-312 *)
  Fixpoint clear (fuel : nat) (m : mem) (l : lst) : outcome (mem * lst) :=
    match fuel with
    | O => NoFuel
    | S fuel =>
        if empty l then Ok (m, l)
        else let! (m, l) := eraseFirst m l in clear fuel m l
    end.

  (** size.  linkedList.h:315-323 *)
  Fixpoint size_loop (fuel : nat) (m : mem) (k : iter) (cnt : nat) : outcome nat :=
    match fuel with
    | O => NoFuel
    | S fuel =>
        if isNull (cur k) then Ok cnt
        else let! (_, k) := getNext m k in size_loop fuel m k (S cnt)
    end.

  Definition size (m : mem) (l : lst) : outcome nat := size_loop (S (length m)) m (getFwIter l) 0.

  (** reading everything through an iterator, the way of linkedList.h:128-129 *)
  Fixpoint read_loop (fuel : nat) (m : mem) (k : iter) : outcome (list A) :=
    match fuel with
    | O => NoFuel
    | S fuel =>
        if isNull (cur k) then Ok []
        else let! (v, k) := getNext m k in let! r := read_loop fuel m k in Ok (v :: r)
    end.

  Definition items (m : mem) (l : lst) : outcome (list A) :=
    read_loop (S (length m)) m (getFwIter l).

  (** The copy constructor.  linkedList.h:108-111 *)
  Fixpoint copy_loop (fuel : nat) (m : mem) (l : lst) (k : iter) : outcome (mem * lst) :=
    match fuel with
    | O => NoFuel
    | S fuel =>
        if isNull (cur k) then Ok (m, l)
        else
          let! (v, k) := getNext m k in
          let! (m, l, _) := insertFirst m l v in
          copy_loop fuel m l k
    end.

  Definition copy (m : mem) (other : lst) : outcome (mem * lst) :=
    copy_loop (S (length m)) m empty_list (getFwIter other).

  (** operator=.  linkedList.h:126-131 *)
  Fixpoint assign_loop (fuel : nat) (m : mem) (l : lst) (k : iter) : outcome (mem * lst) :=
    match fuel with
    | O => NoFuel
    | S fuel =>
        if isNull (cur k) then Ok (m, l)
        else
          let! (v, k) := getNext m k in
          let! (m, l, _) := add m l v in
          assign_loop fuel m l k
    end.

  Definition assign (m : mem) (l other : lst) : outcome (mem * lst) :=
    let! (m, l) := clear (S (length m)) m l in
    assign_loop (S (length m)) m l (getFwIter other).

  (** operator= when the other list is this list: getFwIter is called after clear.
      linkedList.h:126-131 *)
  Definition self_assign (m : mem) (l : lst) : outcome (mem * lst) :=
    let! (m, l) := clear (S (length m)) m l in
    assign_loop (S (length m)) m l (getFwIter l).

  (** The iterator a caller gets by starting at the beginning and stepping n times. *)
  Fixpoint steps (n : nat) (m : mem) (i : iter) : outcome iter :=
    match n with
    | O => Ok i
    | S n => let! (_, i) := getNext m i in steps n m i
    end.

  Definition iterAt (m : mem) (l : lst) (n : nat) : outcome iter := steps n m (getFwIter l).

  (** One call of the public interface; an exception leaves the state as it was. *)
  Definition answered {B} (s : mem * lst) (o : outcome B) (f : B -> lanswer A * (mem * lst))
    : outcome (lanswer A * (mem * lst)) :=
    match o with
    | Ok r => Ok (f r)
    | Throw => Ok (LFailed, s)
    | Undef => Undef
    | NoFuel => NoFuel
    end.

  Definition step (s : mem * lst) (o : lop A) : outcome (lanswer A * (mem * lst)) :=
    let (m, l) := s in
    match o with
    | LInsertFirst x => answered s (insertFirst m l x) (fun '(m, l, _) => (LDone, (m, l)))
    | LAdd x => answered s (add m l x) (fun '(m, l, _) => (LDone, (m, l)))
    | LInsertAfter i x =>
        answered s (let! it := iterAt m l i in insertAfter m l it x)
          (fun '(m, l, _) => (LDone, (m, l)))
    | LInsertBefore i x =>
        answered s (let! it := iterAt m l i in insertBefore m l it x)
          (fun '(m, l, _, _) => (LDone, (m, l)))
    | LEraseFirst => answered s (eraseFirst m l) (fun s => (LDone, s))
    | LErase i =>
        answered s (let! it := iterAt m l i in erase m l it) (fun '(m, l, _) => (LDone, (m, l)))
    | LClear => answered s (clear (S (length m)) m l) (fun s => (LDone, s))
    | LGetFirst => answered s (getFirst m l) (fun x => (LItem x, s))
    | LGetLast => answered s (getLast m l) (fun x => (LItem x, s))
    | LGetAt i => answered s (let! it := iterAt m l i in peek m it) (fun x => (LItem x, s))
    | LSize => answered s (size m l) (fun n => (LNumber n, s))
    | LEmpty => Ok (LFlag (empty l), s)
    | LItems => answered s (items m l) (fun r => (LAll r, s))
    end.

  Fixpoint run (s : mem * lst) (os : list (lop A)) : outcome (list (lanswer A) * (mem * lst)) :=
    match os with
    | [] => Ok ([], s)
    | o :: os =>
        let! (a, s) := step s o in let! (r, s) := run s os in Ok (a :: r, s)
    end.
End LinkedList.
Arguments node : clear implicits.
Arguments mem : clear implicits.
