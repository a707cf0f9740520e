(** Model of BTree: /repo/src/lightspeed/base/containers/btree.h.

    A node is a value [BN leaf size items subs]; [items] are the first
    [_keyCount] slots of the array [_item] and [subs] the first [_keyCount + 1]
    slots of [_subtree] (none in a leaf, where the pointer is null).  Both
    arrays have 2*order slots; the model stops with [Undef] when more would be
    stored.  Indexes of type short are integers here: an order above 16384 is
    not covered.  Items are moved by copying (move of a plain type). *)
From Verif Require Import Common.

Section BTree.
Context {T : Type}.
Variable less : T -> T -> bool.
Variable order : nat.                    (* btree.h:181, at least 2 *)

(** btree.h:45-54 *)
Inductive bnode := BN (leaf : bool) (size : Z) (items : list T) (subs : list bnode).

Definition isLeaf (n : bnode) := let 'BN l _ _ _ := n in l.
Definition subtreeSize (n : bnode) := let 'BN _ s _ _ := n in s.
Definition bitems (n : bnode) := let 'BN _ _ i _ := n in i.
Definition bsubs (n : bnode) := let 'BN _ _ _ s := n in s.
Definition keyCount (n : bnode) := length (bitems n).

(** reading a slot of an array *)
Definition at_ {A} (l : list A) (i : nat) : outcome A :=
  match nth_error l i with Some x => Ok x | None => Undef end.

(** storing to slot [i] what was there moving one up: ShiftRightAt
    (btree.h:654-672) and the assignment that follows *)
Definition insertAt {A} (l : list A) (i : nat) (x : A) : outcome (list A) :=
  if (length l <? 2 * order) && (i <=? length l) then Ok (firstn i l ++ x :: skipn i l) else Undef.

(** the loop at btree.h:610-616: how many leading items are less *)
Fixpoint linear (l : list T) (k : T) : nat :=
  match l with
  | [] => 0
  | x :: l' => if less x k then S (linear l' k) else 0
  end.

(** the loop at btree.h:631-645; the answer is found, index; the fuel is not in the code *)
Fixpoint binary (fuel : nat) (l : list T) (k : T) (lo hi : nat) (index : Z) : outcome (bool * Z) :=
  if lo <? hi then
    match fuel with
    | O => NoFuel
    | S f =>
        let mid := (lo + hi) / 2 in
        let! x := at_ l mid in
        if less k x then binary f l k lo mid (Z.of_nat mid - 1)
        else if less x k then binary f l k (mid + 1) hi (Z.of_nat mid)
        else Ok (true, Z.of_nat mid)
    end
  else Ok (false, index).

(** btree.h:598-648; [index] is not initialised by the callers, the value
    before the first assignment is never seen *)
Definition search (l : list T) (k : T) : outcome (bool * Z) :=
  if length l <=? 7 then
    if length l =? 0 then Ok (false, (-1)%Z)
    else
      let i := linear l k in
      match nth_error l i with
      | Some x => if negb (less k x) then Ok (true, Z.of_nat i) else Ok (false, (Z.of_nat i - 1)%Z)
      | None => Ok (false, (Z.of_nat i - 1)%Z)
      end
  else binary (length l) l k 0 (length l) (-1).

(** the height of the tree, used as a bound for the loops below *)
Fixpoint height (n : bnode) : nat :=
  match n with
  | BN _ _ _ [] => 1
  | BN _ _ _ (s :: _) => S (height s)
  end.

(** btree.h:733-750: a copy of the item that is found *)
Fixpoint findIn (fuel : nat) (n : bnode) (k : T) : outcome (option T) :=
  match fuel with
  | O => NoFuel
  | S f =>
      let! (found, pos) := search (bitems n) k in
      if found then let! x := at_ (bitems n) (Z.to_nat pos) in Ok (Some x)
      else if isLeaf n then Ok None
      else let! s := at_ (bsubs n) (Z.to_nat (pos + 1)) in findIn f s k
  end.

Definition btree := option bnode.

Definition bfind (t : btree) (k : T) : outcome (option T) :=
  match t with None => Ok None | Some n => findIn (height n) n k end.

(** btree.h:251 *)
Definition bsize (t : btree) : Z := match t with None => 0%Z | Some n => subtreeSize n end.

(** the loop at btree.h:789-803; the answer is the index of the item, or the
    index of the subtree to go on with, and the rank left *)
Fixpoint rankScan (subs : list bnode) (keys i : nat) (rank : Z) : outcome (nat + nat * Z) :=
  match keys with
  | O => Ok (inr (i, rank))
  | S keys' =>
      match subs with
      | [] => Undef
      | p :: subs' =>
          if (subtreeSize p >? rank)%Z then Ok (inr (i, rank))
          else
            let rank := (rank - subtreeSize p)%Z in
            if (rank =? 0)%Z then Ok (inl i)
            else rankScan subs' keys' (S i) (rank - 1)
      end
  end.

(** the loop at btree.h:777-811; the assert is not modelled (a bad rank reads
    outside of the array) *)
Fixpoint rankIn (fuel : nat) (n : bnode) (rank : Z) : outcome T :=
  match fuel with
  | O => NoFuel
  | S f =>
      if isLeaf n then if (rank <? 0)%Z then Undef else at_ (bitems n) (Z.to_nat rank)
      else
        let! r := rankScan (bsubs n) (keyCount n) 0 rank in
        match r with
        | inl i => at_ (bitems n) i
        | inr (i, rank) => let! s := at_ (bsubs n) i in rankIn f s rank
        end
  end.

(** btree.h:767-812 *)
Definition itemWithRank (t : btree) (rank : Z) : outcome (option T) :=
  match t with
  | None => Ok None
  | Some n =>
      if keyCount n =? 0 then Ok None
      else
        let rank := Z.min (Z.max rank 0) (subtreeSize n - 1) in
        let! x := rankIn (height n) n rank in Ok (Some x)
  end.

Definition sizes (l : list bnode) : Z := fold_right (fun s a => (subtreeSize s + a)%Z) 0%Z l.

(** the loop at btree.h:827-852 *)
Fixpoint rankOfIn (fuel : nat) (n : bnode) (k : T) (count : Z) : outcome Z :=
  match fuel with
  | O => NoFuel
  | S f =>
      let! (found, pos) := search (bitems n) k in
      if isLeaf n then Ok (count + (if found then pos else pos + 1))%Z
      else
        let count := (count + sizes (firstn (Z.to_nat (pos + 1)) (bsubs n)))%Z in
        if found then Ok (count + pos)%Z
        else let! s := at_ (bsubs n) (Z.to_nat (pos + 1)) in
             rankOfIn f s k (count + (pos + 1))
  end.

(** btree.h:816-853 *)
Definition rankOf (t : btree) (k : T) : outcome Z :=
  match t with
  | None => Ok 0%Z
  | Some n => if keyCount n =? 0 then Ok 0%Z else rankOfIn (height n) n k 0
  end.

(** btree.h:1099-1127 *)
Definition splitChild (x : bnode) (i : nat) (y : bnode) : outcome bnode :=
  let 'BN xl xs xi xsub := x in
  let 'BN yl ys yi ysub := y in
  let zi := firstn (order - 1) (skipn order yi) in
  let zsub := firstn order (skipn order ysub) in
  let! med := at_ yi (order - 1) in
  let zsize := (sizes zsub + Z.of_nat (length zi))%Z in
  let z := BN yl zsize zi zsub in
  let y' := BN yl (ys - (zsize + 1)) (firstn (order - 1) yi) (firstn order ysub) in
  let! xi := insertAt xi i med in
  let! xsub := insertAt (upd xsub i y') (i + 1) z in
  Ok (BN xl xs xi xsub).

(** btree.h:164 *)
Definition maxHeight : nat := 50.

(** btree.h:1051-1096; the array [stack] has 50 slots *)
Fixpoint insertNonFull (room : nat) (n : bnode) (k : T) : outcome (bnode * bool) :=
  let! (found, pos) := search (bitems n) k in
  if found then Ok (n, false)
  else
    match room with
    | O => Undef
    | S f =>
        if isLeaf n then
          let! it := insertAt (bitems n) (Z.to_nat (pos + 1)) k in
          Ok (BN true (subtreeSize n + 1) it (bsubs n), true)
        else
          let i := Z.to_nat (pos + 1) in
          let! y := at_ (bsubs n) i in
          let! (n, i) :=
            if keyCount y =? 2 * order - 1 then
              let! n := splitChild n i y in
              let! m := at_ (bitems n) i in
              Ok (n, if negb (less k m) then i + 1 else i)
            else Ok (n, i) in
          let! y := at_ (bsubs n) i in
          let! (y, added) := insertNonFull f y k in
          Ok (BN (isLeaf n) (if added then subtreeSize n + 1 else subtreeSize n)%Z (bitems n) (upd (bsubs n) i y), added)
    end.

(** btree.h:858-884 *)
Definition badd (t : btree) (k : T) : outcome (btree * bool) :=
  let root := match t with Some n => n | None => BN true 0 [] [] end in
  let! root :=
    if keyCount root <? 2 * order - 1 then Ok root
    else splitChild (BN false (subtreeSize root) [] [root]) 0 root in
  let! (n, b) := insertNonFull maxHeight root k in
  Ok (Some n, b).

(** ** The iterator, btree.h:341-591.  The path is kept with the current node
    first; an index starts at -1. *)
Record biter := mkBI { bpath : list (bnode * Z); bindex : Z }.

(** btree.h:377-384; [None] is the null pointer of an empty tree *)
Definition breset (t : btree) : option biter :=
  match t with None => None | Some n => Some (mkBI [(n, (-1)%Z)] (-1)) end.

(** btree.h:440 *)
Definition bmore (t : btree) (it : biter) : bool := (bindex it <? bsize t - 1)%Z.

(** the loop at btree.h:464-471; the path may hold 50 nodes *)
Fixpoint goLeft (fuel : nat) (n : bnode) (path : list (bnode * Z)) : outcome (T * list (bnode * Z)) :=
  if maxHeight <=? length path then Undef else
  let path := (n, 0%Z) :: path in
  if isLeaf n then let! x := at_ (bitems n) 0 in Ok (x, path)
  else match fuel with
       | O => NoFuel
       | S f => let! s := at_ (bsubs n) 0 in goLeft f s path
       end.

(** the loop at btree.h:480-486 *)
Fixpoint goUp (path : list (bnode * Z)) : outcome (option T * list (bnode * Z)) :=
  match path with
  | [] => Ok (None, [])
  | (n, i) :: path' =>
      if (i >=? Z.of_nat (keyCount n))%Z then goUp path'
      else if (i <? 0)%Z then Undef
      else let! x := at_ (bitems n) (Z.to_nat i) in Ok (Some x, path)
  end.

(** btree.h:444-501 *)
Definition bnext (t : btree) (it : biter) : outcome (option T * biter) :=
  if (bindex it >=? bsize t)%Z then Ok (None, it) else
  match bpath it with
  | [] => Ok (None, it)
  | (n, i) :: path =>
      let index := (bindex it + 1)%Z in
      if isLeaf n then
        if (i >=? Z.of_nat (keyCount n) - 1)%Z then
          let! (r, path) := goUp path in Ok (r, mkBI path index)
        else
          let! x := at_ (bitems n) (Z.to_nat (i + 1)) in
          Ok (Some x, mkBI ((n, (i + 1)%Z) :: path) index)
      else
        let! s := at_ (bsubs n) (Z.to_nat (i + 1)) in
        let! (x, path) := goLeft (height n) s ((n, (i + 1)%Z) :: path) in
        Ok (Some x, mkBI path index)
  end.

(** the usual loop: while More, Next *)
Fixpoint bwalk (fuel : nat) (t : btree) (it : biter) : outcome (list T) :=
  if bmore t it then
    match fuel with
    | O => NoFuel
    | S f =>
        let! (r, it) := bnext t it in
        match r with
        | None => Undef                      (* the caller reads through a null pointer *)
        | Some x => let! l := bwalk f t it in Ok (x :: l)
        end
    end
  else Ok [].

Definition contents (t : btree) : outcome (list T) :=
  match breset t with
  | None => Ok []
  | Some it => bwalk (Z.to_nat (bsize t)) t it
  end.

(** the loop at btree.h:405-419: the path to the place of the key, the current
    node first, the index so far, and whether the key was found in the first
    node *)
Fixpoint beginIn (fuel : nat) (n : bnode) (k : T) (path : list (bnode * Z)) (index : Z)
    : outcome (list (bnode * Z) * Z * bool) :=
  match fuel with
  | O => NoFuel
  | S f =>
      let! (found, pos) := search (bitems n) k in
      if maxHeight <=? length path then Undef else
      let here := if found then pos else (pos + 1)%Z in
      let index := (index + here)%Z in
      if isLeaf n then Ok ((n, here) :: path, index, found)
      else
        let index := (index + sizes (firstn (Z.to_nat (pos + 1)) (bsubs n)))%Z in
        if found then Ok ((n, here) :: path, index, found)
        else let! s := at_ (bsubs n) (Z.to_nat (pos + 1)) in beginIn f s k ((n, here) :: path) index
  end.

(** btree.h:390-436.  When the search ended in an inner node the loop at
    425-431 goes down along the last children; it stops at a null child only,
    and a leaf has no array of children, so it always reads through a null
    pointer. *)
Definition beginFrom (t : btree) (k : T) : outcome biter :=
  match t with
  | None => Ok (mkBI [] (-1))
  | Some n =>
      if (bsize t <=? 0)%Z then Ok (mkBI [] (-1)) else
      let! (pi, _) := beginIn (height n) n k [] (-1) in
      let (path, index) := pi in
      match path with
      | [] => Undef
      | (m, i) :: path' => if isLeaf m then Ok (mkBI ((m, i - 1)%Z :: path') index) else Undef
      end
  end.

(** the loop at btree.h:554-560 *)
Fixpoint goUpLeft (path : list (bnode * Z)) : outcome (option T * list (bnode * Z)) :=
  match path with
  | [] => Ok (None, [])
  | (n, i) :: path' =>
      if (i <=? 0)%Z then goUpLeft path'
      else let! x := at_ (bitems n) (Z.to_nat (i - 1)) in Ok (Some x, path)
  end.

(** btree.h:514-575.  The loop at 538-545 takes a child of the leaf it reaches,
    through a null pointer.  The case of lines 519-524 (an iterator that went
    past the end) continues with the root as the path. *)
Definition bprev (t : btree) (it : biter) : outcome (option T * biter) :=
  if (bindex it <=? 0)%Z then Ok (None, it) else
  let! path :=
    match bpath it, t with
    | [], None => Undef
    | [], Some n => Ok [(n, Z.of_nat (keyCount n) + 1)%Z]
    | p, _ => Ok p
    end in
  match path with
  | [] => Undef
  | (n, i) :: path' =>
      let index := (bindex it - 1)%Z in
      if negb (isLeaf n) then Undef
      else if (i <=? 0)%Z then
        let! (r, path) := goUpLeft path' in Ok (r, mkBI path index)
      else
        let! x := at_ (bitems n) (Z.to_nat (i - 1)) in
        Ok (Some x, mkBI ((n, i - 1)%Z :: path') index)
  end.

(** ** Remove *)

(** btree.h:288 *)
Inductive action := NoAction | RotateLeft | RotateRight | Merge.

Definition removeAt {A} (l : list A) (i : nat) : outcome (list A) :=
  if i <? length l then Ok (firstn i l ++ skipn (S i) l) else Undef.

(** btree.h:1159-1229: the children [index] and [index + 1] of the node; the
    answer is the changed node, the action and the place of the child to go on
    with.  The asserts are [Undef].  After the merge of the last two children
    of a node the code makes the merged child the root of the tree; here the
    node keeps it as its only child.  A rotation uses the array of children of
    both nodes, which a leaf does not have. *)
Definition adjust (n : bnode) (index : nat) : outcome (bnode * action * nat) :=
  let 'BN nl ns ni nsub := n in
  let! c0 := at_ nsub index in
  let! c1 := at_ nsub (index + 1) in
  let! m := at_ ni index in
  let 'BN l0 s0 i0 sub0 := c0 in
  let 'BN l1 s1 i1 sub1 := c1 in
  if (keyCount c0 =? order - 1) && (keyCount c1 =? order - 1) then
    let c := BN l0 (s0 + (s1 + 1)) (i0 ++ m :: i1) (sub0 ++ sub1) in
    let! ni := removeAt ni index in
    let! nsub := removeAt (upd nsub index c) (index + 1) in
    Ok (BN nl ns ni nsub, Merge, index)
  else if l0 || l1 then Undef
  else if order <=? keyCount c0 then
    let! p := at_ sub0 (keyCount c0) in
    let! x := at_ i0 (keyCount c0 - 1) in
    let! i1 := insertAt i1 0 m in
    let xfr := (subtreeSize p + 1)%Z in
    let c1 := BN l1 (s1 + xfr) i1 (p :: sub1) in
    let c0 := BN l0 (s0 - xfr) (firstn (keyCount c0 - 1) i0) (firstn (keyCount c0) sub0) in
    (* line 1202 stores to slot 0, not to slot [index] *)
    Ok (BN nl ns (upd ni 0 x) (upd (upd nsub index c0) (index + 1) c1), RotateRight, index + 1)
  else if order <=? keyCount c1 then
    let! p := at_ sub1 0 in
    let! x := at_ i1 0 in
    let xfr := (subtreeSize p + 1)%Z in
    let c1 := BN l1 (s1 - xfr) (skipn 1 i1) (skipn 1 sub1) in
    let c0 := BN l0 (s0 + xfr) (i0 ++ [m]) (sub0 ++ [p]) in
    Ok (BN nl ns (upd ni index x) (upd (upd nsub index c0) (index + 1) c1), RotateLeft, index)
  else Undef.

(** btree.h:1130-1156; no place of a child in a leaf *)
Definition descendInto (n : bnode) (i : nat) : outcome (bnode * action * option nat) :=
  if isLeaf n then Ok (n, NoAction, None)
  else
    let! child := at_ (bsubs n) i in
    if order <=? keyCount child then Ok (n, NoAction, Some i)
    else
      let! r := adjust n (i - 1) in
      let '(n, a, j) := r in Ok (n, a, Some j).

(** updSubtree, btree.h:1036-1047, for a node that is not the first *)
Definition decSize (n : bnode) : bnode := let 'BN l s i sub := n in BN l (s - 1) i sub.

(** btree.h:988-996: down to the first leaf below the node; in the leaf slot 0
    is moved to slot [index] of the same leaf and then dropped *)
Fixpoint dropFirst (fuel : nat) (n : bnode) (index : nat) : outcome bnode :=
  match fuel with
  | O => NoFuel
  | S f =>
      if isLeaf n then
        let 'BN l s i sub := n in
        let! x := at_ i 0 in
        if 2 * order <=? index then Undef else
        let! i := removeAt (upd i index x) 0 in
        Ok (decSize (BN l s i sub))
      else
        let! r := descendInto n 0 in
        let '(n, _, j) := r in
        match j with
        | None => Undef
        | Some j =>
            let! c := at_ (bsubs n) j in
            let! c := dropFirst f c index in
            let 'BN l s i sub := n in
            Ok (decSize (BN l s i (upd sub j c)))
        end
  end.

(** btree.h:935-999; [state] is [None] for SEARCHING and the index for
    DESCENDING; [true] when a key was removed.  The sizes are decreased when
    something was removed, but that of the first node only when it still has a
    key (lines 1038-1042, [first]). *)
Fixpoint removeIn (fuel : nat) (first : bool) (n : bnode) (k : T) (state : option nat) : outcome (bnode * bool) :=
  match fuel with
  | O => NoFuel
  | S f =>
      let! (found, pos) := match state with
                           | None => search (bitems n) k
                           | Some i => Ok (true, Z.of_nat i)
                           end in
      let! r := descendInto n (Z.to_nat (pos + 1)) in
      let '(n, act, j) := r in
      match j with
      | None =>                                          (* a leaf *)
          if negb found then Ok (n, false) else
          let 'BN l s i sub := n in
          let! i := removeAt i (Z.to_nat pos) in
          let n := BN l s i sub in
          Ok (if first && (length i =? 0) then n else decSize n, true)
      | Some j =>
          let! c := at_ (bsubs n) j in
          (* an inner node other than the root always keeps a key here *)
          if (keyCount n =? 0) && negb first then Undef else
          let next := if negb found then Some None
                      else match act with
                           | RotateRight => Some (Some 0)
                           | RotateLeft | Merge => Some (Some (order - 1))
                           | NoAction => None
                           end in
          match next with
          | Some st =>
              if (keyCount n =? 0) then removeIn f first c k st        (* the old root is gone *)
              else
                let! (c, b) := removeIn f false c k st in
                let 'BN l s i sub := n in
                let n := BN l s i (upd sub j c) in
                Ok (if b then decSize n else n, b)
          | None =>
              let! c := dropFirst f c (Z.to_nat pos) in
              let 'BN l s i sub := n in
              Ok (decSize (BN l s i (upd sub j c)), true)
          end
      end
  end.

(** btree.h:897-1002; at most 50 nodes on the stack *)
Definition bremove (t : btree) (k : T) : outcome (btree * bool) :=
  match t with
  | None => Ok (t, false)
  | Some n =>
      if keyCount n =? 0 then Ok (t, false)
      else if maxHeight <? height n then Undef
      else let! (n, b) := removeIn (S (height n)) true n k None in Ok (Some n, b)
  end.

End BTree.
Arguments bnode : clear implicits.
Arguments btree : clear implicits.
