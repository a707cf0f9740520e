(** Model of ArraySet, base/containers/arraySet.h and arraySet.tcc, the part that can be compiled: merge, filter, remove, crop
    and getOrdered pass the array for a value of OrderControl.  Access beyond the end is not checked (flatArray.h:81) and is
    undefined. *)
From Verif Require Import Common.
From Verif Require Heap_Model.

Section ArraySet.
  Context {A : Type} (cmp : A -> A -> bool).
  Definition get (l : list A) (i : nat) : outcome A := match nth_error l i with Some x => Ok x | None => Undef end.

  (** arraySet.h:169-171 *)
  Record st := mkSt { items : list A; orderedCount : nat; duplicates : bool }.
  (** arraySet.h:43 *)
  Definition init : st := mkSt [] 0 false.

  (** arraySet.tcc:309-327: searchOrdered; each turn makes the range smaller *)
  Fixpoint bsearch (fuel : nat) (s : list A) (obj : A) (l r : nat) : outcome (bool * nat) :=
    if l <? r then
      match fuel with
      | O => NoFuel
      | S f =>
          let m := (l + r) / 2 in
          let! v := get s m in
          if cmp obj v then bsearch f s obj l m
          else if cmp v obj then bsearch f s obj (m + 1) r
          else Ok (true, m)
      end
    else Ok (false, l).
  Definition searchOrdered (s : st) (obj : A) : outcome (bool * nat) :=
    let r := Nat.min (orderedCount s) (length (items s)) in bsearch r (items s) obj 0 r.
  (** arraySet.tcc:330-341: searchUnordered *)
  Fixpoint scan (l : list A) (i : nat) (obj : A) : bool * nat :=
    match l with [] => (false, i) | v :: t => if negb (cmp obj v) && negb (cmp v obj) then (true, i) else scan t (S i) obj end.
  Definition searchUnordered (s : st) (obj : A) : bool * nat :=
    let l := Nat.min (orderedCount s) (length (items s)) in scan (skipn l (items s)) l obj.
  (** arraySet.tcc:19-26: find: the item pointed to, if any, and getPos() *)
  Definition find (s : st) (obj : A) : outcome (option A * nat) :=
    let! (f, pos) := searchOrdered s obj in
    if f : bool then let! v := get (items s) pos in Ok (Some v, pos)
    else
      let (f2, pos2) := searchUnordered s obj in
      if f2 : bool then let! v := get (items s) pos in Ok (Some v, pos2)
      else Ok (None, pos).

  (** arraySet.tcc:88-92: the item at [x] goes down *)
  Fixpoint sink (l : list A) (x : nat) : outcome (list A) :=
    match x with
    | O => Ok l
    | S y => let! a := get l y in let! b := get l x in
             if negb (cmp a b) then let! l := Heap_Model.swap l y x in sink l y else Ok l
    end.
  (** arraySet.tcc:86-93; [n] items remain *)
  Fixpoint sinkAll (n : nat) (l : list A) (i : nat) : outcome (list A) :=
    match n with O => Ok l | S k => let! l := sink l i in sinkAll k l (S i) end.
  (** arraySet.tcc:355-377: removeDuplicatesAfterOrder; only the first line, which always returns when it is called by
      makeOrdered, the rest is not modelled *)
  Definition removeDuplicatesAfterOrder (s : st) : outcome st :=
    if (match items s with [] => true | _ => false end) || (orderedCount s <? length (items s)) then Ok s else NoFuel.
  (** arraySet.tcc:76-101: makeOrdered *)
  Definition makeOrdered (s : st) : outcome st :=
    match items s with
    | [] => Ok s
    | _ =>
        let oc := if orderedCount s =? 0 then 1 else orderedCount s in
        let n := length (items s) in
        if n <=? oc then Ok (mkSt (items s) oc (duplicates s))
        else
          let! l := if n - oc <? 30 then sinkAll (n - oc) (items s) oc
                    else let! l := Heap_Model.sort cmp (items s) in
                         let! s := if duplicates s then Ok (mkSt l oc (duplicates s)) else removeDuplicatesAfterOrder (mkSt l oc (duplicates s)) in
                         Ok (items s) in
          Ok (mkSt l (length l) (duplicates s))
    end.
  (** arraySet.tcc:104-106 *)
  Definition isOrdered (s : st) : bool := orderedCount s =? length (items s).

  (** AutoArray::insert, erase, see AutoArray_Model.v *)
  Definition ins (l : list A) (at_ : nat) (x : list A) : list A := firstn at_ l ++ x ++ skipn at_ l.
  Definition del (l : list A) (at_ n : nat) : list A := firstn at_ l ++ skipn (at_ + n) l.
  (** arraySet.tcc:261-271: insert of one item *)
  Definition insert (at_ : nat) (x : A) (s : st) : outcome st :=
    if length (items s) <? at_ then Throw
    else
      let l := ins (items s) at_ [x] in
      let oc := orderedCount s in
      if at_ <? oc then
        let! bad1 := if 0 <? at_ then let! a := get l (at_ - 1) in let! b := get l at_ in Ok (negb (cmp a b)) else Ok false in
        if bad1 : bool then Ok (mkSt l at_ (duplicates s))
        else
          let! bad2 := if at_ + 1 <? length l then let! a := get l at_ in let! b := get l (at_ + 1) in Ok (negb (cmp a b)) else Ok false in
          Ok (mkSt l (if bad2 : bool then at_ else oc + 1) (duplicates s))
      else Ok (mkSt l oc (duplicates s)).
  (** arraySet.tcc:274-281: insert of more items *)
  Definition insertN (at_ : nat) (x : A) (count : nat) (s : st) : outcome st :=
    if count =? 1 then insert at_ x s
    else if length (items s) <? at_ then Throw
    else Ok (mkSt (ins (items s) at_ (repeat x count)) at_ (duplicates s)).
  (** arraySet.tcc:284-287: erase of one item *)
  Definition erase (at_ : nat) (s : st) : outcome st :=
    if length (items s) <? at_ then Throw
    else Ok (mkSt (del (items s) at_ 1) (if at_ <? orderedCount s then orderedCount s - 1 else orderedCount s) (duplicates s)).
  (** arraySet.tcc:290-294: erase of more items *)
  Definition eraseN (at_ count : nat) (s : st) : outcome st :=
    if length (items s) <? at_ then Throw
    else Ok (mkSt (del (items s) at_ 1)
                  (if at_ + count <? orderedCount s then orderedCount s - count else if at_ <? orderedCount s then at_ else orderedCount s) (duplicates s)).
  (** arraySet.tcc:297-300: trunc *)
  Definition trunc (n : nat) (s : st) : outcome st :=
    let l := firstn (length (items s) - n) (items s) in
    Ok (mkSt l (if length l <? orderedCount s then length l else orderedCount s) (duplicates s)).
  (** arraySet.tcc:344-352: checkOrder; length()-1 wraps around for an empty array, and the first item is read then *)
  Fixpoint run_up (l : list A) : nat :=
    match l with a :: (b :: _) as t => if cmp a b then S (run_up t) else 0 | _ => 0 end.
  Definition checkOrder (l : list A) : outcome nat := match l with [] => Undef | _ => Ok (run_up l) end.

  Inductive op := Add (x : A) | Insert (at_ : nat) (x : A) | InsertN (at_ : nat) (x : A) (n : nat) | Erase (at_ : nat) | EraseN (at_ n : nat)
    | Trunc (n : nat) | Clear | MakeOrdered | EnableDuplicates (b : bool).
  Definition exec (o : op) (s : st) : outcome st :=
    match o with
    | Add x => Ok (mkSt (items s ++ [x]) (orderedCount s) (duplicates s))
    | Insert a x => insert a x s
    | InsertN a x n => insertN a x n s
    | Erase a => erase a s
    | EraseN a n => eraseN a n s
    | Trunc n => trunc n s
    | Clear => Ok (mkSt [] 0 (duplicates s))
    | MakeOrdered => makeOrdered s
    | EnableDuplicates b => Ok (mkSt (items s) (orderedCount s) b)
    end.
  (** an exception leaves the set as it was *)
  Fixpoint run (l : list op) (s : st) : outcome st :=
    match l with
    | [] => Ok s
    | o :: t => match exec o s with Throw => run t s | Ok s' => run t s' | Undef => Undef | NoFuel => NoFuel end
    end.
  (** arraySet.h:54-58, arraySet.tcc:380-387: the constructor from an array with detectOrder *)
  Definition detect (data : list A) : outcome st := let! c := checkOrder data in Ok (mkSt data c false).
End ArraySet.
Arguments mkSt {A}.
Arguments init {A}.
Arguments Clear {A}.
Arguments MakeOrdered {A}.
Arguments Erase {A}.
Arguments EraseN {A}.
Arguments Trunc {A}.
Arguments EnableDuplicates {A}.
