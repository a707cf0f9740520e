(** Model of List, base/containers/list.h: items in a ring with an anchor, counted references of the list and of iterators.

    Memory is a function from addresses to living items; access to another address is undefined.  Address 0 is the anchor.
    Allocation does not fail.  A local pointer that is made and destroyed within a function is left out, if a reference is held
    elsewhere. *)
From Coq Require Import ZArith.
From Verif Require Import Common DList_Spec.

(** list.h:36-61, refs is the counter of RefCntObj *)
Record node := mkN { val : Z; nxt : nat; prv : nat; refs : nat }.
Definition mem := nat -> option node.
Definition load (m : mem) (p : nat) : outcome node := match m p with Some n => Ok n | None => Undef end.
Definition set (m : mem) (p : nat) (n : option node) : mem := fun q => if q =? p then n else m q.
Definition setNext (m : mem) (p x : nat) : outcome mem := let! n := load m p in Ok (set m p (Some (mkN (val n) x (prv n) (refs n)))).
Definition setPrev (m : mem) (p x : nat) : outcome mem := let! n := load m p in Ok (set m p (Some (mkN (val n) (nxt n) x (refs n)))).
(** RefCntPtr, see RefCnt_Model.v *)
Definition addRef (m : mem) (p : nat) : outcome mem := let! n := load m p in Ok (set m p (Some (mkN (val n) (nxt n) (prv n) (S (refs n))))).
Definition release (m : mem) (p : nat) : outcome mem :=
  let! n := load m p in
  match refs n with
  | O => Undef
  | S O => Ok (set m p None)
  | S r => Ok (set m p (Some (mkN (val n) (nxt n) (prv n) r)))
  end.

(** list.h:416-418; [brk] is the next unused address *)
Record lst := mkL { m : mem; count : nat; brk : nat }.
(** list.h:46-49, 277-278: the anchor holds a reference to itself *)
Definition empty_list : lst := mkL (fun p => if p =? 0 then Some (mkN 0 0 0 1) else None) 0 1.

(** list.h:420-424: createItem; list.h:42: the item points to itself *)
Definition create (x : Z) (l : lst) : lst * nat := (mkL (set (m l) (brk l) (Some (mkN x (brk l) (brk l) 1))) (count l) (S (brk l)), brk l).
(** list.h:427-437: addAfterItm; the item is a new one.  The argument itm drops its reference at the end. *)
Definition addAfterItm (loc itm : nat) (l : lst) : outcome lst :=
  let! a := load (m l) loc in
  let! h := setNext (m l) itm (nxt a) in
  let! h := setPrev h itm loc in
  let! h := setNext h loc itm in
  let! i := load h itm in
  let! h := setPrev h (nxt i) itm in
  let! h := addRef h itm in
  let! h := release h itm in
  Ok (mkL h (count l + 1) (brk l)).
(** list.h:439-449: addBeforeItm *)
Definition addBeforeItm (loc itm : nat) (l : lst) : outcome lst :=
  let! h := setNext (m l) itm loc in
  let! a := load h loc in
  let! h := setPrev h itm (prv a) in
  let! h := setPrev h loc itm in
  let! i := load h itm in
  let! h := setNext h (prv i) itm in
  let! h := addRef h itm in
  let! h := release h itm in
  Ok (mkL h (count l + 1) (brk l)).
(** list.h:451-459: removeItem *)
Definition removeItem (itm : nat) (l : lst) : outcome lst :=
  let! i := load (m l) itm in
  let! h := setPrev (m l) (nxt i) (prv i) in
  let! i := load h itm in
  let! h := setNext h (prv i) (nxt i) in
  let! h := setNext h itm itm in
  let! h := setPrev h itm itm in
  let! h := release h itm in
  Ok (mkL h (count l - 1) (brk l)).
(** list.h:374-376: empty *)
Definition empty (l : lst) : outcome bool := let! a := load (m l) 0 in Ok ((nxt a =? 0) && (prv a =? 0)).
(** list.h:353-372: clear, Remover::remove; every turn removes an item *)
Fixpoint clear (fuel : nat) (l : lst) : outcome lst :=
  let! e := empty l in
  if e : bool then Ok l
  else match fuel with
       | O => NoFuel
       | S f => let! a := load (m l) 0 in let! l := removeItem (nxt a) l in clear f l
       end.

(** list.h:66-75, 207-208: an iterator: pos and dir *)
Definition iter := (nat * bool)%type.
(** list.h:92-105, 139-153: pos = pos->next or pos->prev: the new item is referenced first *)
Definition moveIt (fw : bool) (p : nat) (l : lst) : outcome (nat * lst) :=
  let! n := load (m l) p in
  let q := if fw then nxt n else prv n in
  let! h := addRef (m l) q in
  let! h := release h p in
  Ok (q, mkL h (count l) (brk l)).
(** list.h:107-111: peek; [None]: IteratorNoMoreItems *)
Definition peek (p : nat) (l : lst) : outcome (option Z) := if p =? 0 then Ok None else let! n := load (m l) p in Ok (Some (val n)).
(** list.h:326-333: getFwIter, getBkIter *)
Definition begin_ (fw : bool) (l : lst) : outcome (iter * lst) :=
  let! a := load (m l) 0 in
  let q := if fw then nxt a else prv a in
  let! h := addRef (m l) q in Ok ((q, fw), mkL h (count l) (brk l)).
(** list.h:341-351: erase, the result replaces the iterator *)
Definition erase (it : iter) (l : lst) : outcome (iter * lst) :=
  let (p, fw) := it in
  let! h := addRef (m l) p in
  let l := mkL h (count l) (brk l) in
  if p =? 0 then let! h := release (m l) p in Ok (it, mkL h (count l) (brk l))
  else
    let! (q, l) := moveIt fw p l in
    let! l := removeItem p l in
    let! h := release (m l) p in
    Ok ((q, fw), mkL h (count l) (brk l)).

Record st := mkSt { lst_ : lst; iters : list iter }.
Definition init : st := mkSt empty_list [].
Definition exec (o : op) (s : st) : outcome (out * st) :=
  let l := lst_ s in
  let it i := match nth_error (iters s) i with Some x => Ok x | None => Undef end in
  match o with
  | AddFront x => let (l, i) := create x l in let! l := addAfterItm 0 i l in Ok (Nothing, mkSt l (iters s))
  | AddBack x => let (l, i) := create x l in let! l := addBeforeItm 0 i l in Ok (Nothing, mkSt l (iters s))
  | Begin fw => let! (i, l) := begin_ fw l in Ok (Nothing, mkSt l (iters s ++ [i]))
  | Next i =>
      let! (p, fw) := it i in
      let! v := peek p l in
      match v : option Z with
      | None => Ok (NoMore, s)
      | Some x => let! (q, l) := moveIt fw p l in Ok (Value x, mkSt l (upd (iters s) i (q, fw)))
      end
  | Peek i => let! (p, fw) := it i in let! v := peek p l in Ok (match v : option Z with None => NoMore | Some x => Value x end, s)
  | Seek i d => let! (p, fw) := it i in let! (q, l) := moveIt d p l in Ok (Nothing, mkSt l (upd (iters s) i (q, fw)))
  | InsertAfter i x => let! (p, fw) := it i in let (l, n) := create x l in let! l := addAfterItm p n l in Ok (Nothing, mkSt l (iters s))
  | InsertBefore i x => let! (p, fw) := it i in let (l, n) := create x l in let! l := addBeforeItm p n l in Ok (Nothing, mkSt l (iters s))
  | Erase i => let! x := it i in let! (y, l) := erase x l in Ok (Nothing, mkSt l (upd (iters s) i y))
  | Drop i =>
      match nth_error (iters s) i with
      | Some (p, _) => let! h := release (m l) p in Ok (Nothing, mkSt (mkL h (count l) (brk l)) (rem i (iters s)))
      | None => Ok (Nothing, s)
      end
  | Clear => let! l := clear (brk l) l in Ok (Nothing, mkSt l (iters s))
  end.
Fixpoint run (l : list op) (s : st) : outcome (list out * st) :=
  match l with [] => Ok ([], s) | o :: t => let! (x, s) := exec o s in let! (xs, s) := run t s in Ok (x :: xs, s) end.
(** the items in one direction, by a new iterator *)
Fixpoint walk (fuel : nat) (fw : bool) (p : nat) (l : lst) : outcome (list Z) :=
  match fuel with
  | O => NoFuel
  | S f =>
      let! v := peek p l in
      match v : option Z with
      | None => Ok []
      | Some x => let! (q, l) := moveIt fw p l in let! r := walk f fw q l in Ok (x :: r)
      end
  end.
Definition items (fw : bool) (l : lst) : outcome (list Z) := let! (i, l) := begin_ fw l in walk (S (brk l)) fw (fst i) l.
