(** Model of array expressions, src/lightspeed/base/containers/arrayt.h (ArrayT, ArrayTBase),
    arrayExpr.h and flatArray.h: parts, concatenations, reversed and repeated arrays, searching,
    comparing, splitting and iterating.

    Items have a total order [icmp].  Numbers given by the caller are 64 bit ([N]); lengths of
    existing arrays are [nat] and do not wrap around.  Reading outside of the memory of a flat
    array and dividing by zero are [Undef]; naturalNull as a found position is [None].
    Not modelled: transform, cast, extend, changing items through an expression. *)
From Verif Require Import Common ArrExpr_Spec.

Section Model.
  Context {T : Type} (icmp : T -> T -> comparison).

  (** The expressions [aexp] of ArrExpr_Spec: [Flat] is an array or FlatArrMid,
      flatArray.h:260-294; [Sum], [Mid], [Rev], [Rep] are ArrSum, ArrMid, ArrRev, ArrRep,
      arrayExpr.h:58-117, 119-162, 185-231, 232-270 *)
  Notation aexp := (@aexp T).

  (** length, flatArray.h:275, arrayExpr.h:72, 132, 196, 243 *)
  Fixpoint len (a : aexp) : nat :=
    match a with
    | Flat _ _ n => n
    | Sum a b => len a + len b
    | Mid _ _ n => n
    | Rev a => len a
    | Rep a n => len a * n
    end.

  (** at, flatArray.h:81 and 277-280, arrayExpr.h:73-77, 133-135, 197-204, 244-246 *)
  Fixpoint at_ (a : aexp) (i : nat) : outcome T :=
    match a with
    | Flat l s _ => match nth_error l (s + i) with Some x => Ok x | None => Undef end
    | Sum a b => if len a <=? i then at_ b (i - len a) else at_ a i
    | Mid a s _ => at_ a (i + s)
    | Rev a => if i <? len a then at_ a (len a - i - 1) else Undef
    | Rep a _ => if len a =? 0 then Undef else at_ a (i mod len a)
    end.

  (** empty, arrayt.h:745-747, arrayExpr.h:112-114 (concatenations) and 155-157 (parts of arrays
      that are not flat) *)
  Fixpoint empty (a : aexp) : bool :=
    match a with
    | Sum a b => empty a && empty b
    | Mid _ _ n => 0 <? n
    | Flat _ _ _ | Rev _ | Rep _ _ => len a =? 0
    end.

  (** ** Visiting items *)
  Section Visit.
    Context {S : Type} (f : S -> T -> bool * S).

    (** forEach of ArrayTBase, arrayt.h:694-699 *)
    Fixpoint eachAt (get : nat -> outcome T) (n i : nat) (s : S) : outcome (bool * S) :=
      match n with
      | O => Ok (false, s)
      | Datatypes.S m =>
          let! x := get i in
          let (stop, s1) := f s x in if stop : bool then Ok (true, s1) else eachAt get m (Datatypes.S i) s1
      end.

    (** the loop of ArrRep::forEach, arrayExpr.h:260-266; each round takes at least one item *)
    Fixpoint repLoop (each : nat -> nat -> S -> outcome (bool * S)) (l fuel k count : nat) (s : S) : outcome (bool * S) :=
      if l <? k + count then
        match fuel with
        | O => NoFuel
        | Datatypes.S fu =>
            let! (stop, s1) := each k (l - k) s in
            if stop then Ok (true, s1) else repLoop each l fu 0 (count - (l - k)) s1
        end
      else each k count s.

    (** forEach with a range, arrayt.h:694-699, arrayExpr.h:97-106, 150-153, 219-225, 258-267.
        When the count for the second part of a concatenation is negative it wraps around:
        everything of that part is visited and then what lies behind it *)
    Fixpoint forEach (a : aexp) (from count : nat) (s : S) : outcome (bool * S) :=
      match a with
      | Flat _ _ _ => eachAt (at_ a) count from s
      | Sum a b =>
          let l := len a in
          if l <=? from then forEach b (from - l) count s
          else if from + count <=? l then forEach a from count s
          else
            let! (stop, s1) := forEach a from (l - from) s in
            if stop then Ok (true, s1)
            else if l <=? count then forEach b 0 (count - l) s1
            else let! (stop, s2) := forEach b 0 (len b) s1 in if stop then Ok (true, s2) else Undef
      | Mid a st _ => forEach a (from + st) count s
      | Rev _ => eachAt (at_ a) count from s
      | Rep a _ =>
          let l := len a in
          if l =? 0 then Undef else repLoop (forEach a) l count (from mod l) count s
      end.
  End Visit.

  (** ** Parts *)

  (** Mid(a, start, count), arrayExpr.h:129-130, for flat arrays flatArray.h:299-325, for parts
      arrayExpr.h:164-183 *)
  Definition mkMid (a : aexp) (s n : nat) : aexp :=
    match a with
    | Flat l s0 _ => Flat l (s0 + s) n
    | Mid a s0 _ => Mid a (s + s0) n
    | _ => Mid a s n
    end.

  Definition W : N := (2 ^ 64)%N.
  Definition lenN (a : aexp) : N := N.of_nat (len a).

  (** mid, arrayt.h:261-272 *)
  Definition mid (a : aexp) (pos count : N) : aexp :=
    if (lenN a <=? pos)%N then mkMid a 0 0
    else if (lenN a <? (pos + count) mod W)%N then mkMid a (N.to_nat pos) (len a - N.to_nat pos)
    else mkMid a (N.to_nat pos) (N.to_nat count).
  (** head, offset, tail, roffset, arrayt.h:273-304 *)
  Definition clip (a : aexp) (n : N) : nat := if (lenN a <? n)%N then len a else N.to_nat n.
  Definition head (a : aexp) (count : N) : aexp := mkMid a 0 (clip a count).
  Definition offset (a : aexp) (pos : N) : aexp := mkMid a (clip a pos) (len a - clip a pos).
  Definition tail (a : aexp) (pos : N) : aexp := mkMid a (len a - clip a pos) (clip a pos).
  Definition roffset (a : aexp) (pos : N) : aexp := mkMid a 0 (len a - clip a pos).
  (** crop, arrayt.h:305-314; l-right-left is computed modulo 2^64 *)
  Definition crop (a : aexp) (left right : N) : aexp :=
    if (lenN a <=? (left + right) mod W)%N then mkMid a 0 0
    else mkMid a (N.to_nat left) (N.to_nat ((lenN a + 2 * W - right - left) mod W)).

  (** ** Searching *)

  (** FindItemFunctor, arrayt.h:437-448, and FindOneOfFunctor, 450-462, whose state is the
      position; [p] is what is asked of an item *)
  Definition finder (p : T -> bool) (pos : nat) (x : T) : bool * nat :=
    if p x then (true, pos) else (false, S pos).
  Definition isEq (x y : T) : bool := match icmp x y with Eq => true | _ => false end.

  (** find of an item and findOneOf, arrayt.h:495-500 and 527-533 *)
  Definition findP (a : aexp) (p : T -> bool) : outcome (option nat) :=
    if empty a then Ok None
    else let! (stop, pos) := forEach (finder p) a 0 (len a) 0 in Ok (if stop then Some pos else None).
  Definition find (a : aexp) (x : T) : outcome (option nat) := findP a (fun y => isEq y x).
  (** find of an item from a position, arrayt.h:501-504 *)
  Definition findFrom (a : aexp) (x : T) (pos : N) : outcome (option nat) :=
    let! r := find (offset a pos) x in
    Ok (match r with Some i => Some (i + N.to_nat pos) | None => None end).
  (** findOneOf, arrayt.h:527-533, with a flat set of items *)
  Definition findOneOf (a : aexp) (set : list T) : outcome (option nat) :=
    findP a (fun y => existsb (fun z => isEq z y) set).
  (** findLast of an item and findLastOneOf, arrayt.h:541-546, 576-582 *)
  Definition findLastP (a : aexp) (p : T -> bool) : outcome (option nat) :=
    if empty a then Ok None
    else
      let! (stop, pos) := forEach (finder p) (Rev (offset a 0)) 0 (len a) 0 in
      Ok (if stop then Some (len a - pos - 1) else None).
  Definition findLast (a : aexp) (x : T) : outcome (option nat) := findLastP a (fun y => isEq y x).

  (** ** Comparing *)

  (** compareItems and CmpFunctor, arrayt.h:706-726; items are totally ordered *)
  Fixpoint cmpLoop (a b : aexp) (n i : nat) : outcome comparison :=
    match n with
    | O => Ok Eq
    | S m =>
        let! x := at_ a i in let! y := at_ b i in
        match icmp x y with Eq => cmpLoop a b m (S i) | c => Ok c end
    end.
  (** compare, arrayt.h:730-739, when the first array is not the longer one *)
  Definition cmpShorter (a b : aexp) : outcome comparison :=
    if len a =? 0 then Ok (if len b =? 0 then Eq else Lt)
    else
      let! c := cmpLoop a b (len a) 0 in
      Ok (match c with Eq => if len a <? len b then Lt else Eq | c => c end).
  (** compare, arrayt.h:730-739, and swapCompareResult, compare.h:16-25 *)
  Definition compare (a b : aexp) : outcome comparison :=
    if len b <? len a then let! c := cmpShorter b a in Ok (CompOpp c) else cmpShorter a b.

  (** ** Searching for an array *)

  (** find of an array, arrayt.h:506-518; each round starts behind the last one *)
  Fixpoint findArrLoop (fuel : nat) (a b : aexp) (pos : option nat) : outcome (option nat) :=
    match pos with
    | None => Ok None
    | Some p =>
        match fuel with
        | O => NoFuel
        | S f =>
            let! c := compare (mid a (N.of_nat p) (lenN b)) b in
            match c with
            | Eq => Ok (Some p)
            | _ =>
                let! x := at_ b 0 in
                let! r := findFrom a x (N.of_nat (S p)) in findArrLoop f a b r
            end
        end
    end.
  Definition findArr (a b : aexp) : outcome (option nat) :=
    if (len b =? 0) || (len a <? len b) then Ok None
    else let! x := at_ b 0 in let! r := find a x in findArrLoop (len a) a b r.
  (** findLast of an array and findLastArr, arrayt.h:556-560, 570-574 *)
  Definition findLastArr (a b : aexp) : outcome (option nat) :=
    let! r := findArr (Rev (offset a 0)) (Rev (offset b 0)) in
    Ok (match r with Some p => Some (len a - p - 1) | None => None end).

  (** ** Splitting and trimming *)

  (** SplitIterator, arrayt.h:609-661: the parts until hasItems is false *)
  Fixpoint splitLoop (fuel : nat) (a : aexp) (sep : T) (pos : nat) : outcome (list aexp) :=
    if pos <=? len a then
      match fuel with
      | O => NoFuel
      | S f =>
          let! r := find (offset a (N.of_nat pos)) sep in
          let part := mkMid a pos (match r with None => len a - pos | Some p => p end) in
          let! t := splitLoop f a sep (pos + len part + 1) in Ok (part :: t)
      end
    else Ok [].
  Definition split (a : aexp) (sep : T) : outcome (list aexp) := splitLoop (S (len a)) a sep 0.

  (** trim, arrayt.h:315-362; [p] says whether an item is to be removed; [fromLeft] is
      [dir != right], [fromRight] is [dir != left] *)
  Fixpoint trimLeft (a : aexp) (p : T -> bool) (n beg : nat) : outcome nat :=
    match n with
    | O => Ok beg
    | S m => let! x := at_ a beg in if p x then trimLeft a p m (S beg) else Ok beg
    end.
  Fixpoint trimRight (a : aexp) (p : T -> bool) (n end_ : nat) : outcome nat :=
    match n with
    | O => Ok end_
    | S m => let! x := at_ a (end_ - 1) in if p x then trimRight a p m (end_ - 1) else Ok end_
    end.
  Definition trim (a : aexp) (p : T -> bool) (fromLeft fromRight : bool) : outcome aexp :=
    let! beg := (if fromLeft then trimLeft a p (len a) 0 else Ok 0) in
    let! end_ := (if fromRight then trimRight a p (len a - beg) (len a) else Ok (len a)) in
    Ok (mid a (N.of_nat beg) (N.of_nat (end_ - beg))).

  (** forEach with a range through ArrayT, arrayt.h:74-81 *)
  Definition forEachRange {S : Type} (f : S -> T -> bool * S) (a : aexp) (from count : N) (s : S) : outcome (bool * S) :=
    if (lenN a <? from)%N then Ok (true, s)
    else
      let count := if (lenN a <? (from + count) mod W)%N then ((lenN a + W - count) mod W)%N else count in
      if (count =? 0)%N then Ok (true, s) else forEach f a (N.to_nat from) (N.to_nat count) s.

  (** ** Iterators, arrayt.h:83-174; [pos] is 64 bit *)
  Record iter := mkIter { ipos : N; ifwd : bool }.
  (** getFwIter and getBkIter, arrayt.h:177-183, and the constructor, 87-88 *)
  Definition iterNew (a : aexp) (fwd : bool) : iter := mkIter (if fwd then 0%N else (lenN a + W - 1) mod W)%N fwd.
  (** hasItems, arrayt.h:89-91 *)
  Definition hasItems (a : aexp) (it : iter) : bool := (ipos it <? lenN a)%N.
  (** getNext, arrayt.h:96-106 *)
  Definition getNext (a : aexp) (it : iter) : outcome (T * iter) :=
    if hasItems a it then
      let! x := at_ a (N.to_nat (ipos it)) in
      Ok (x, mkIter ((if ifwd it then ipos it + 1 else ipos it + W - 1) mod W)%N (ifwd it))
    else Throw.
  (** reading until hasItems is false *)
  Fixpoint drain (fuel : nat) (a : aexp) (it : iter) : outcome (list T) :=
    if hasItems a it then
      match fuel with
      | O => NoFuel
      | S f => let! (x, it1) := getNext a it in let! r := drain f a it1 in Ok (x :: r)
      end
    else Ok [].
  (** seek, arrayt.h:118-138, forward and backward *)
  Definition seek (a : aexp) (it : iter) (off : N) (fwd : bool) : N * iter :=
    if (off =? 0)%N then (0%N, it)
    else if fwd then
      let off := if (lenN a <? (ipos it + off) mod W)%N then ((lenN a + W - ipos it) mod W)%N else off in
      (off, mkIter ((ipos it + off) mod W)%N (ifwd it))
    else
      let off := if (0 <? (ipos it + 1) mod W)%N then ((ipos it + 1) mod W)%N else off in
      (off, mkIter ((ipos it + W - off) mod W)%N (ifwd it)).
End Model.
