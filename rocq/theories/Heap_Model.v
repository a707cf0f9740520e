(** Model of HeapSort, src/lightspeed/base/containers/sort.{h,tcc}, and PriorityQueue,
    src/lightspeed/base/containers/priorityQueue.h.  The container is an AutoArray, a list
    of items; access beyond its end is not checked (flatArray.h:81) and is undefined here. *)
From Verif Require Import Common.

Section Heap.
  Context {A : Type} (isLess : A -> A -> bool).

  Definition get (l : list A) (i : nat) : outcome A :=
    match nth_error l i with Some x => Ok x | None => Undef end.
  (** std::swap(cont(i),cont(j)) *)
  Definition swap (l : list A) (i j : nat) : outcome (list A) :=
    let! x := get l i in let! y := get l j in Ok (upd (upd l i y) j x).

  (** sort.h:101-103: the array and heapSize *)
  Record heap := mkHeap { arr : list A; hsize : nat }.

  (** sort.tcc:39-46 *)
  Fixpoint siftUp (fuel : nat) (l : list A) (child : nat) : outcome (list A) :=
    if child =? 0 then Ok l
    else match fuel with
         | O => NoFuel
         | S f =>
             let parent := (child - 1) / 2 in
             let! p := get l parent in
             let! c := get l child in
             if isLess p c then let! l := swap l parent child in siftUp f l parent else Ok l
         end.

  (** sort.tcc:36-52 *)
  Definition push (h : heap) : outcome (bool * heap) :=
    if hsize h <? length (arr h) then
      let! l := siftUp (hsize h) (arr h) (hsize h) in Ok (true, mkHeap l (hsize h + 1))
    else Ok (false, h).

  (** sort.tcc:93-101 *)
  Fixpoint siftLoop (fuel : nat) (l : list A) (n root : nat) : outcome (list A) :=
    let child := root * 2 + 1 in
    if child <? n then
      match fuel with
      | O => NoFuel
      | S f =>
          let! child := (if child + 1 <? n then
                           let! a := get l child in let! b := get l (child + 1) in
                           Ok (if isLess a b then child + 1 else child)
                         else Ok child) in
          let! r := get l root in
          let! c := get l child in
          if isLess r c then let! l := swap l root child in siftLoop f l n child else Ok l
      end
    else Ok l.
  (** sort.tcc:89-103 *)
  Definition shiftDown (l : list A) (n from : nat) : outcome (list A) :=
    if from * 2 + 1 <? n then siftLoop n l n from else Ok l.

  (** sort.tcc:55-66 *)
  Definition pop (h : heap) : outcome (bool * heap) :=
    if 0 <? hsize h then
      let n := hsize h - 1 in
      if 0 <? n then
        let! l := swap (arr h) 0 n in
        let! l := shiftDown l n 0 in
        Ok (true, mkHeap l n)
      else Ok (true, mkHeap (arr h) n)
    else Ok (false, h).

  (** sort.tcc:69-80; note that shiftDown() starts at 0 *)
  Definition popAt (h : heap) (at_ : nat) : outcome (bool * heap) :=
    if at_ <? hsize h then
      let n := hsize h - 1 in
      if at_ <? n then
        let! l := swap (arr h) at_ n in
        let! l := shiftDown l n 0 in
        Ok (true, mkHeap l n)
      else Ok (true, mkHeap (arr h) n)
    else Ok (false, h).

  (** sort.tcc:24-27 *)
  Fixpoint makeHeap (fuel : nat) (h : heap) : outcome heap :=
    if hsize h <? length (arr h) then
      match fuel with O => NoFuel | S f => let! (_, h) := push h in makeHeap f h end
    else Ok h.
  (** sort.tcc:30-33 *)
  Fixpoint sortHeap (fuel : nat) (h : heap) : outcome heap :=
    if 0 <? hsize h then
      match fuel with O => NoFuel | S f => let! (_, h) := pop h in sortHeap f h end
    else Ok h.
  (** sort.tcc:18-21, on a fresh object (sort.h:23) *)
  Definition sort (l : list A) : outcome (list A) :=
    let! h := makeHeap (length l) (mkHeap l 0) in
    let! h := sortHeap (hsize h) h in
    Ok (arr h).

  (** sort.tcc:107-109 and 122-124 *)
  Definition top (h : heap) : outcome A := get (arr h) 0.
  Definition isBetter (h : heap) (x : A) : outcome bool := let! t := top h in Ok (isLess t x).

  (** ** PriorityQueue *)
  (** containers/autoArray.tcc:181-184: removes the last [count] items *)
  Definition trunc (l : list A) (count : nat) : list A := firstn (length l - count) l.

  (** priorityQueue.h:21 and 26 *)
  Definition pq_new : heap := mkHeap [] 0.
  Definition pq_push (q : heap) (x : A) : outcome heap :=
    let! (_, h) := push (mkHeap (arr q ++ [x]) (hsize q)) in Ok h.
  (** priorityQueue.h:31 *)
  Definition pq_top (q : heap) : outcome A := get (arr q) 0.
  (** priorityQueue.h:33 *)
  Definition pq_pop (q : heap) : outcome heap :=
    let! (_, h) := pop q in Ok (mkHeap (trunc (arr h) (hsize h)) (hsize h)).
  (** priorityQueue.h:35 and 37 *)
  Definition pq_empty (q : heap) : bool := match arr q with [] => true | _ => false end.
  Definition pq_length (q : heap) : nat := hsize q.
End Heap.
Arguments heap : clear implicits.
