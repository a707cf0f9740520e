(** Model of the iterator adapters of src/lightspeed/base/iter: the default algorithms of
    iterator.h (base/iter/iterator.h), filters (iteratorFilter.h, iteratorFilter.tcc), SortFilter (sortFilter.h,
    sortFilter.tcc), MergeIterator (merge.h) and the limiter (limiter.h).
    Simplified: a source is an iterator over a list (its items are what getNext() gives, in
    order), a target is the plain write iterator of Iter_Spec.v: a list with room for a
    number of items, whose write() throws when there is no room.  Items are values: the
    lifetime of the items whose addresses filters keep is not modelled. *)
From Verif Require Import Common Heap_Model Iter_Spec.

(** the write() of a target: WriteIteratorNoSpace without room *)
Definition t_write {A} (t : target A) (x : A) : outcome (target A) :=
  match troom t with
  | Some O => Throw
  | Some (S r) => Ok (mkTarget (tdata t ++ [x]) (Some r))
  | None => Ok (mkTarget (tdata t ++ [x]) None)
  end.

(** ** Default algorithms *)
Section Default.
  Context {A : Type}.
  (** iterator.h:446-454: the source is left, the buffer, and the count of items read *)
  Fixpoint readLoop (fuel : nat) (src buf : list A) (rd : nat) : outcome (nat * list A * list A) :=
    match src with
    | x :: r => if rd <? length buf then
                  match fuel with
                  | O => NoFuel
                  | S f => readLoop f r (upd buf rd x) (rd + 1)
                  end
                else Ok (rd, buf, src)
    | [] => Ok (rd, buf, src)
    end.
  (** iterator.h:441-459; None: IteratorNoMoreItems *)
  Definition blockRead (src buf : list A) (readAll : bool) : outcome (option nat * list A * list A) :=
    if length buf =? 0 then Ok (Some 0, buf, src)
    else
      let! (rd, buf, src) := readLoop (length buf) src buf 0 in
      if readAll && negb (rd =? length buf) then Ok (None, buf, src) else Ok (Some rd, buf, src).

  (** iterator.h:532-539; limit None: naturalNull, which no count reaches *)
  Definition below (count : nat) (limit : option nat) : bool :=
    match limit with Some m => count <? m | None => true end.
  Fixpoint copy (src : list A) (t : target A) (limit : option nat) (count : nat) : outcome (nat * list A * target A) :=
    match src with
    | x :: r => if below count limit && t_open t
                then let! t := t_write t x in copy r t limit (count + 1)
                else Ok (count, src, t)
    | [] => Ok (count, src, t)
    end.

  (** iterator.h:590-593, and 575-578 *)
  Fixpoint writeLoop (buf : list A) (t : target A) (wr : nat) : outcome (nat * target A) :=
    match buf with
    | x :: r => if t_open t then let! t := t_write t x in writeLoop r t (wr + 1) else Ok (wr, t)
    | [] => Ok (wr, t)
    end.
  (** iterator.h:585-597 and 570-582; None: WriteIteratorNoSpace *)
  Definition blockWrite (buf : list A) (t : target A) (writeAll : bool) : outcome (option nat * target A) :=
    if length buf =? 0 then Ok (Some 0, t)
    else
      let! (wr, t) := writeLoop buf t 0 in
      if negb (wr =? length buf) && writeAll then Ok (None, t) else Ok (Some wr, t).

  (** iterator.h:549-555; a failed write ends with the exception: None *)
  Fixpoint blockCopyLoop (fuel : nat) (src : list A) (t : target A) (buf : list A) (limit : option nat) (count : nat)
    : outcome (option nat * list A * target A) :=
    match limit with
    | Some O => Ok (Some count, src, t)
    | _ =>
        match fuel with
        | O => NoFuel
        | S f =>
            let toread := match limit with
                          | Some m => if length buf <? m then length buf else m
                          | None => length buf
                          end in
            let! (rd, head, src) := blockRead src (firstn toread buf) false in
            match rd with
            | None => Ok (None, src, t)
            | Some O => Ok (Some count, src, t)
            | Some rd =>
                let! (wr, t) := blockWrite (firstn rd head) t true in
                match wr with
                | None => Ok (None, src, t)
                | Some _ =>
                    blockCopyLoop f src t (head ++ skipn toread buf)
                      (match limit with Some m => Some (m - rd) | None => None end) count
                end
            end
        end
    end.
  (** iterator.h:546-557 *)
  Definition blockCopy (src : list A) (t : target A) (buf : list A) (limit : option nat)
    : outcome (option nat * list A * target A) :=
    blockCopyLoop (S (length src)) src t buf limit 0.
End Default.

(** ** Filters *)
(** iteratorFilter.h:40-150: what a filter offers *)
Record filter (I O S : Type) := mkFilter {
  needI : S -> bool; finput : S -> I -> outcome S;
  hasO : S -> bool; foutput : S -> outcome (O * S); fflush : S -> S }.
Arguments mkFilter {I O S} needI finput hasO foutput fflush.
Arguments needI {I O S} f.
Arguments finput {I O S} f.
Arguments hasO {I O S} f.
Arguments foutput {I O S} f.
Arguments fflush {I O S} f.

Section FilterIter.
  Context {I O S : Type} (F : filter I O S).

  (** iteratorFilter.h:185-188 and 195-198 *)
  Fixpoint fetchLoop (s : S) (src : list I) : outcome (S * list I) :=
    if needI F s then
      match src with
      | [] => Ok (s, [])
      | x :: r => let! s := finput F s x in fetchLoop s r
      end
    else Ok (s, src).
  (** iteratorFilter.h:183-191 and 193-201 *)
  Definition blockFetch (s : S) (src : list I) : outcome (S * list I) :=
    let! (s, src) := fetchLoop s src in Ok (if needI F s then fflush F s else s, src).

  (** iteratorFilter.h:204-211 *)
  Fixpoint blockFeed (fuel : nat) (s : S) (t : target O) (cnt : nat) : outcome (S * target O) :=
    if hasO F s && ((cnt =? 0) || t_open t) then
      match fuel with
      | 0 => NoFuel
      | Datatypes.S f => let! (o, s) := foutput F s in let! t := t_write t o in blockFeed f s t (cnt + 1)
      end
    else Ok (s, t).

  (** iteratorFilter.h:219-225; an empty array is read past its end *)
  Fixpoint blockInput (s : S) (arr : list I) : outcome (nat * S) :=
    match arr with
    | [] => Undef
    | x :: r =>
        let! s := finput F s x in
        match r with
        | [] => Ok (1, s)
        | _ => if needI F s then let! (c, s) := blockInput s r in Ok (c + 1, s) else Ok (1, s)
        end
    end.

  (** iteratorFilter.h:228-234, writing from index [pos] of the array; a write past the end
      is undefined.  [c] is the count written before *)
  Fixpoint blockOutput (fuel : nat) (s : S) (buf : list O) (pos c : nat) : outcome (nat * list O * S) :=
    match fuel with
    | 0 => NoFuel
    | Datatypes.S f =>
        let! (o, s) := foutput F s in
        if pos <? length buf then
          let buf := upd buf pos o in
          if (pos + 1 <? length buf) && hasO F s then blockOutput f s buf (pos + 1) (c + 1) else Ok (c + 1, buf, s)
        else Undef
    end.

  (** iteratorFilter.h:434-440: the source, the filter and the buffered item *)
  Inductive fetched := Fetched0 | Fetched1 (x : O) | Fetched2.
  Record fread := mkFread { frSrc : list I; frFlt : S; frBuf : fetched }.

  (** iteratorFilter.tcc:49-51 *)
  Definition fr_hasItems (r : fread) : bool :=
    match frBuf r with Fetched1 _ => true | _ => false end || hasO F (frFlt r) ||
    (match frSrc r with [] => false | _ => true end && needI F (frFlt r)).
  (** iteratorFilter.tcc:68-81; None: IteratorNoMoreItems *)
  Definition fr_getBuffer (r : fread) : outcome (option O * fread) :=
    match frBuf r with
    | Fetched1 x => Ok (Some x, r)
    | _ =>
        let! (s, src) := (if hasO F (frFlt r) then Ok (frFlt r, frSrc r) else blockFetch (frFlt r) (frSrc r)) in
        if hasO F s then let! (o, s) := foutput F s in Ok (Some o, mkFread src s (Fetched1 o))
        else Ok (None, mkFread src s Fetched0)
    end.
  (** iteratorFilter.tcc:60-64 and 91-93 *)
  Definition fr_getNext (r : fread) : outcome (option O * fread) :=
    let! (o, r) := fr_getBuffer r in
    match o with
    | Some x => Ok (Some x, mkFread (frSrc r) (frFlt r) Fetched2)
    | None => Ok (None, r)
    end.
  Definition fr_op (r : fread) (o : rop) : outcome (ranswer O * fread) :=
    match o with
    | RHas => Ok (AnsBool (fr_hasItems r), r)
    | RPeek => let! (x, r) := fr_getBuffer r in Ok (match x with Some x => AnsItem x | None => AnsEnd end, r)
    | RNext => let! (x, r) := fr_getNext r in Ok (match x with Some x => AnsItem x | None => AnsEnd end, r)
    end.
  Fixpoint fr_ops (r : fread) (os : list rop) : outcome (list (ranswer O) * fread) :=
    match os with
    | [] => Ok ([], r)
    | o :: t => let! (a, r) := fr_op r o in let! (l, r) := fr_ops r t in Ok (a :: l, r)
    end.

  (** iteratorFilter.tcc:143-150 *)
  Fixpoint fr_loop (fuel : nat) (src : list I) (s : S) (buf : list O) (pos : nat) (readAll : bool)
    : outcome (nat * list O * (S * list I)) :=
    match fuel with
    | 0 => NoFuel
    | Datatypes.S f =>
        let! (s, src) := (if hasO F s then Ok (s, src) else blockFetch s src) in
        let! (c, buf, s) := blockOutput (Datatypes.S (length buf)) s buf pos 0 in
        let pos := pos + c in
        if negb readAll && (pos <? length buf) then fr_loop f src s buf pos readAll else Ok (pos, buf, (s, src))
    end.
  (** iteratorFilter.tcc:136-152; buffer[fetched] is buffer[1] *)
  Definition fr_blockRead (r : fread) (buf : list O) (readAll : bool) : outcome (nat * list O * fread) :=
    if length buf =? 0 then Ok (0, buf, r)
    else
      let! (pos, buf, b) := (match frBuf r with
                             | Fetched1 x => if 1 <? length buf then Ok (1, upd buf 1 x, Fetched2) else Undef
                             | b => Ok (0, buf, b)
                             end) in
      let! (pos, buf, (s, src)) := fr_loop (Datatypes.S (length buf)) (frSrc r) (frFlt r) buf pos readAll in
      Ok (pos, buf, mkFread src s b).

  (** iteratorFilter.h:454-497: the target and the filter *)
  Record fwrite := mkFwrite { fwT : target O; fwFlt : S }.
  (** iteratorFilter.tcc:123-125 *)
  Definition flushCycle (fuel : nat) (w : fwrite) : outcome fwrite :=
    let! (s, t) := blockFeed fuel (fwFlt w) (fwT w) 0 in Ok (mkFwrite t s).
  (** iteratorFilter.tcc:17-32 *)
  Definition fw_write (fuel : nat) (w : fwrite) (x : I) : outcome fwrite :=
    let! w := (if needI F (fwFlt w) then Ok w else flushCycle fuel w) in
    let! s := finput F (fwFlt w) x in
    let w := mkFwrite (fwT w) s in
    if needI F (fwFlt w) then Ok w else flushCycle fuel w.
  (** write() of several items, one after another *)
  Fixpoint fw_writes (fuel : nat) (w : fwrite) (xs : list I) : outcome fwrite :=
    match xs with
    | [] => Ok w
    | x :: r => let! w := fw_write fuel w x in fw_writes fuel w r
    end.
  (** iteratorFilter.tcc:128-132; the flush of the target does nothing (iterator.h:599) *)
  Definition fw_flush (fuel : nat) (w : fwrite) : outcome fwrite :=
    flushCycle fuel (mkFwrite (fwT w) (fflush F (fwFlt w))).
  (** the loops of both forms of blockWrite; [more]: the first half of their condition *)
  Fixpoint fw_loop (fuel : nat) (w : fwrite) (arr : list I) (pos : nat) (more : bool) : outcome (nat * fwrite) :=
    match fuel with
    | 0 => NoFuel
    | Datatypes.S f =>
        let! w := (if needI F (fwFlt w) then Ok w else flushCycle fuel w) in
        let! (c, s) := blockInput (fwFlt w) (skipn pos arr) in
        let w := mkFwrite (fwT w) s in
        let pos := pos + c in
        if more && (pos <? length arr) then fw_loop f w arr pos more else Ok (pos, w)
    end.
  (** iteratorFilter.tcc:173-187: array of constant items *)
  Definition fw_blockWrite_const (w : fwrite) (arr : list I) (writeAll : bool) : outcome (nat * fwrite) :=
    if length arr =? 0 then Ok (0, w)
    else
      let! (pos, w) := fw_loop (Datatypes.S (length arr)) w arr 0 writeAll in
      if needI F (fwFlt w) then Ok (pos, w) else let! w := flushCycle (Datatypes.S (length arr)) w in Ok (pos, w).
  (** iteratorFilter.tcc:156-170: array of changeable items *)
  Definition fw_blockWrite (w : fwrite) (arr : list I) (writeAll : bool) : outcome (nat * fwrite) :=
    if length arr =? 0 then Ok (0, w)
    else
      let! (pos, w) := fw_loop (Datatypes.S (length arr)) w arr 0 (negb writeAll) in
      if needI F (fwFlt w) then Ok (pos, w) else let! w := flushCycle (Datatypes.S (length arr)) w in Ok (pos, w).
End FilterIter.
Arguments Fetched0 {O}.
Arguments Fetched1 {O} x.
Arguments Fetched2 {O}.
Arguments mkFread {I O S} frSrc frFlt frBuf.
Arguments frSrc {I O S} f.
Arguments frFlt {I O S} f.
Arguments frBuf {I O S} f.
Arguments mkFwrite {O S} fwT fwFlt.
Arguments fwT {O S} f.
Arguments fwFlt {O S} f.

(** iteratorFilter.h:325-343 and 361-379: NullFilter and TypeConversionFilter; the state is
    the pointer to the pending item, [f] the conversion *)
Definition convFilter {I O} (f : I -> O) : filter I O (option I) :=
  mkFilter (fun s => match s with None => true | Some _ => false end)
           (fun _ x => Ok (Some x))
           (fun s => match s with None => false | Some _ => true end)
           (fun s => match s with None => Undef | Some x => Ok (f x, None) end)
           (fun s => s).

(** ** SortFilter *)
Section SortF.
  Context {A : Type} (isLess : A -> A -> bool).
  (** sortFilter.h:68-70: the buffer with its heap, and the extra item; the allocator takes
      [cap] items (None: no limit) *)
  Record sortf := mkSortf { sfHeap : heap A; sfExtra : option A }.
  Definition sf_new : sortf := mkSortf (mkHeap [] 0) None.
  Definition sf_room (cap : option nat) (s : sortf) : bool :=
    match cap with Some c => length (arr (sfHeap s)) <? c | None => true end.

  (** buffer.add(x); heap.push() *)
  Definition sf_add (h : heap A) (x : A) : outcome (heap A) :=
    let! (_, h) := push isLess (mkHeap (arr h ++ [x]) (hsize h)) in Ok h.
  (** sortFilter.tcc:40-58 *)
  Definition sf_input (cap : option nat) (s : sortf) (x : A) : outcome sortf :=
    let! s := (match sfExtra s with
               | Some e => if sf_room cap s then let! h := sf_add (sfHeap s) e in Ok (mkSortf h None) else Throw
               | None => Ok s
               end) in
    if sf_room cap s then let! h := sf_add (sfHeap s) x in Ok (mkSortf h (sfExtra s))
    else Ok (mkSortf (sfHeap s) (Some x)).
  (** sortFilter.tcc:83-117 *)
  Definition sf_output (s : sortf) : outcome (A * sortf) :=
    match sfExtra s with
    | Some e =>
        let! b := isBetter isLess (sfHeap s) e in
        if b then Ok (e, mkSortf (sfHeap s) None)
        else
          let! t := get (arr (sfHeap s)) 0 in
          let! l := shiftDown isLess (upd (arr (sfHeap s)) 0 e) (hsize (sfHeap s)) 0 in
          Ok (t, mkSortf (mkHeap l (hsize (sfHeap s))) None)
    | None =>
        match arr (sfHeap s) with
        | [] => Throw
        | _ =>
            let! t := top (sfHeap s) in
            let! (_, h) := pop isLess (sfHeap s) in
            Ok (t, mkSortf (mkHeap (trunc (arr h) 1) (hsize h)) None)
        end
    end.
  (** sortFilter.tcc:32-35 and 63-66 *)
  Definition sortFilter (cap : option nat) : filter A A sortf :=
    mkFilter (fun s => match sfExtra s with None => true | Some _ => false end)
             (sf_input cap)
             (fun s => match arr (sfHeap s) with [] => false | _ => true end)
             sf_output
             (fun s => s).
  (** output() called [n] times *)
  Fixpoint sf_outputs (n : nat) (s : sortf) : outcome (list A * sortf) :=
    match n with
    | O => Ok ([], s)
    | S n => let! (x, s) := sf_output s in let! (l, s) := sf_outputs n s in Ok (x :: l, s)
    end.
  (** sortFilter.tcc:70-73 and 76-80: copy constructor (sort.h:23 starts with heapSize 0) and
      assignment, which keeps the extra item of the left side *)
  Definition sf_copy (s : sortf) : sortf := mkSortf (mkHeap (arr (sfHeap s)) 0) None.
  Definition sf_assign (s other : sortf) : sortf :=
    mkSortf (mkHeap (arr (sfHeap other)) (length (arr (sfHeap other)))) (sfExtra s).
End SortF.
Arguments sortf : clear implicits.

(** ** MergeIterator *)
Section Merge.
  Context {A : Type}.
  (** merge.h:79-82: the result and which sides to commit *)
  Record mresult := mkMres { mRes : option A; mL : bool; mR : bool }.
  Variable fn : option A -> option A -> outcome mresult.
  (** merge.h:186-190 *)
  Record merge := mkMerge { mgL : list A; mgR : list A; mgPrep : bool; mgRes : mresult }.
  Definition mg_new (l r : list A) : merge := mkMerge l r false (mkMres None false false).

  Definition hd_opt (l : list A) : option A := match l with [] => None | x :: _ => Some x end.
  (** skip() of a source: throws at its end *)
  Definition skip1 (b : bool) (l : list A) : outcome (list A) :=
    if b then match l with [] => Throw | _ :: t => Ok t end else Ok l.
  (** merge.h:192-207 *)
  Fixpoint prepare (fuel : nat) (m : merge) : outcome merge :=
    match fuel with
    | O => NoFuel
    | S f =>
        let! l := skip1 (mL (mgRes m)) (mgL m) in
        let! r := skip1 (mR (mgRes m)) (mgR m) in
        let! res := (match hd_opt l, hd_opt r with
                     | None, None => Ok (mkMres None false false)
                     | a, b => fn a b
                     end) in
        let m := mkMerge l r true res in
        if match mRes res with None => true | _ => false end && (mL res || mR res) then prepare f m else Ok m
    end.
  Definition mg_prepare (m : merge) : outcome merge :=
    if mgPrep m then Ok m else prepare (S (S (length (mgL m) + length (mgR m)))) m.
  (** merge.h:159-162, 168-173 and 175-181 *)
  Definition mg_op (m : merge) (o : rop) : outcome (ranswer A * merge) :=
    let! m := mg_prepare m in
    match o with
    | RHas => Ok (AnsBool (match mRes (mgRes m) with Some _ => true | None => false end), m)
    | RPeek => Ok (match mRes (mgRes m) with Some x => AnsItem x | None => AnsEnd end, m)
    | RNext => match mRes (mgRes m) with
               | Some x => Ok (AnsItem x, mkMerge (mgL m) (mgR m) false (mgRes m))
               | None => Ok (AnsEnd, m)
               end
    end.
  Fixpoint mg_ops (m : merge) (os : list rop) : outcome (list (ranswer A) * merge) :=
    match os with
    | [] => Ok ([], m)
    | o :: t => let! (a, m) := mg_op m o in let! (l, m) := mg_ops m t in Ok (a :: l, m)
    end.
  (** merge.h:164-166 with merge.h:130-137; sums are assumed to fit *)
  Definition mg_remain (m : merge) : nat := length (mgL m) + length (mgR m).
End Merge.
Arguments mresult : clear implicits.
Arguments merge : clear implicits.

(** merge.h:366-371 *)
Definition concatFn {A} (l r : option A) : outcome (mresult A) :=
  match l with Some x => Ok (mkMres (Some x) true false) | None => Ok (mkMres r false true) end.
(** merge.h:343-350; the comparison looks at the items behind both pointers: a null pointer
    is undefined *)
Definition lessPtr {A} (isLess : A -> A -> bool) (l r : option A) : outcome bool :=
  match l, r with Some x, Some y => Ok (isLess x y) | _, _ => Undef end.
Definition sortFn {A} (isLess : A -> A -> bool) (dups : bool) (l r : option A) : outcome (mresult A) :=
  let! b := (match r with None => Ok true | Some _ => lessPtr isLess l r end) in
  if b then Ok (mkMres l true false)
  else
    let! b := (match l with None => Ok true | Some _ => lessPtr isLess r l end) in
    if b then Ok (mkMres r false true) else Ok (mkMres l true (negb dups)).

(** ** Limiters *)
Section Limit.
  Context {A : Type}.
  (** limiter.h:103-105, over a source *)
  Record rlimit := mkRlimit { rlSrc : list A; rlCount : nat }.
  (** limiter.h:15-20: the loop moves the parameter; the member was copied before *)
  Definition rl_new (src : list A) (count offset : nat) : rlimit := mkRlimit src count.
  (** limiter.h:22, 27-32 and 34-37 *)
  Definition rl_op (l : rlimit) (o : rop) : ranswer A * rlimit :=
    match o with
    | RHas => (AnsBool ((0 <? rlCount l) && match rlSrc l with [] => false | _ => true end), l)
    | RPeek => if rlCount l =? 0 then (AnsEnd, l)
               else (match rlSrc l with [] => AnsEnd | x :: _ => AnsItem x end, l)
    | RNext => if rlCount l =? 0 then (AnsEnd, l)
               else match rlSrc l with
                    | [] => (AnsEnd, l)
                    | x :: t => (AnsItem x, mkRlimit t (rlCount l - 1))
                    end
    end.
  Fixpoint rl_ops (l : rlimit) (os : list rop) : list (ranswer A) * rlimit :=
    match os with
    | [] => ([], l)
    | o :: t => let (a, l) := rl_op l o in let (r, l) := rl_ops l t in (a :: r, l)
    end.
  (** limiter.h:23-26 *)
  Definition rl_remain (l : rlimit) : nat :=
    let cur := length (rlSrc l) in if cur <? rlCount l then cur else rlCount l.

  (** the same over a target *)
  Record wlimit := mkWlimit { wlT : target A; wlCount : nat }.
  (** limiter.h:22, 67-71 and 72-74 (with iterator.h:526-529) *)
  Definition wl_hasItems (w : wlimit) : bool := (0 <? wlCount w) && t_open (wlT w).
  Definition wl_write (w : wlimit) (x : A) : outcome wlimit :=
    if wlCount w =? 0 then Throw else let! t := t_write (wlT w) x in Ok (mkWlimit t (wlCount w - 1)).
  Fixpoint wl_writes (w : wlimit) (xs : list A) : outcome wlimit :=
    match xs with
    | [] => Ok w
    | x :: r => let! w := wl_write w x in wl_writes w r
    end.
  Definition wl_canAccept (w : wlimit) (x : A) : bool := t_open (wlT w).
  (** limiter.h:77-82 *)
  Definition wl_copy (w : wlimit) (src : list A) (limit : option nat) : outcome (nat * list A * wlimit) :=
    let limit := match limit with Some m => if wlCount w <? m then wlCount w else m | None => wlCount w end in
    let! (res, src, t) := copy src (wlT w) (Some limit) 0 in
    Ok (res, src, mkWlimit t (wlCount w - res)).
End Limit.
Arguments rlimit : clear implicits.
Arguments wlimit : clear implicits.
