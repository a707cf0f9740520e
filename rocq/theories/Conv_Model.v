(** Model of the converter protocol, /repo/src/lightspeed/base/iter/iterConv.h.

    A converter is an object with the public flags [hasItems], [eolb] (lines 60-62)
    and the operations write / getNext / flush (lines 20-66).  The flag [needItems]
    is never read by any driver of iterConv.h and is therefore kept inside the state
    of each converter model but not in this interface.

    The target iterator is modelled as an unbounded sink (its [hasItems] is always
    true): outputs are collected in a list.  The source iterator is a list. *)
From Verif Require Import Common.

Record conv (S A B : Type) := mkConv {
  cv_has   : S -> bool;                   (* IConverter::hasItems, iterConv.h:60 *)
  cv_eolb  : S -> bool;                   (* IConverter::eolb,     iterConv.h:62 *)
  cv_write : S -> A -> outcome S;         (* IConverter::write,    iterConv.h:33 *)
  cv_next  : S -> outcome (B * S);        (* IConverter::getNext,  iterConv.h:31 *)
  cv_flush : S -> outcome S               (* IConverter::flush,    iterConv.h:54 *)
}.
Arguments mkConv {S A B}.
Arguments cv_has {S A B}.
Arguments cv_eolb {S A B}.
Arguments cv_write {S A B}.
Arguments cv_next {S A B}.
Arguments cv_flush {S A B}.

(** bound on the number of items one write can make available; not in the code *)
Definition drain_fuel : nat := 300.

Section Drivers.
  Context {S A B : Type} (c : conv S A B).

  (** [while (this->hasItems) target.write(Super::getNext());] iterConv.h:430-432,
      434-436, 493-495, 387-390 *)
  Fixpoint drain_n (fuel : nat) (s : S) : outcome (list B * S) :=
    if cv_has c s then
      match fuel with
      | O => NoFuel
      | Datatypes.S f =>
          let! (b, s1) := cv_next c s in
          let! (r, s2) := drain_n f s1 in
          Ok (b :: r, s2)
      end
    else Ok ([], s).
  Definition drain : S -> outcome (list B * S) := drain_n drain_fuel.

  (** ConverterBase::writeToIter, iterConv.h:427-437 *)
  Definition writeToIter (s : S) (x : A) : outcome (list B * S) :=
    let! (o1, s1) := drain s in
    let! s2 := cv_write c s1 x in
    let! (o2, s3) := drain s2 in
    Ok (o1 ++ o2, s3).

  (** ConverterBase::flushToIter, iterConv.h:489-496 *)
  Definition flushToIter (s : S) : outcome (list B * S) :=
    let! s1 := cv_flush c s in drain s1.

  (** a sequence of writes through ConvertWriteIter::write, iterConv.h:154-156 *)
  Fixpoint writes (s : S) (xs : list A) : outcome (list B * S) :=
    match xs with
    | [] => Ok ([], s)
    | x :: xs =>
        let! (o1, s1) := writeToIter s x in
        let! (o2, s2) := writes s1 xs in
        Ok (o1 ++ o2, s2)
    end.

  (** life of a ConvertWriteIter: writes, then the destructor flushes,
      iterConv.h:148-156 *)
  Definition push_all (s : S) (xs : list A) : outcome (list B) :=
    let! (o1, s1) := writes s xs in
    let! (o2, _) := flushToIter s1 in
    Ok (o1 ++ o2).

  (** the loop of ConverterBase::blockWrite, iterConv.h:394-400, with a target that
      never becomes full; the result is the output, the state and the number of
      items consumed *)
  Fixpoint block_loop (s : S) (xs : list A) : outcome (list B * S * nat) :=
    match xs with
    | [] => Ok ([], s, 0)
    | x :: xs =>
        if cv_eolb c s then Ok ([], s, 0) else
        let! s1 := cv_write c s x in
        let! (o1, s2) := drain s1 in
        let! (o2, s3, n) := block_loop s2 xs in
        Ok (o1 ++ o2, s3, Datatypes.S n)
    end.

  (** ConverterBase::blockWrite, iterConv.h:382-402 *)
  Definition blockWrite (s : S) (xs : list A) : outcome (list B * S * nat) :=
    let! (o1, s1) := drain s in
    let! (o2, s2, n) := block_loop s1 xs in
    Ok (o1 ++ o2, s2, n).

  (** ConverterBase::hasItemsFromIter, iterConv.h:461-482; the source iterator and
      the converter are advanced through const_cast *)
  Fixpoint hasItemsFromIter (s : S) (src : list A) : outcome (bool * S * list A) :=
    if cv_has c s then Ok (true, s, src)
    else if cv_eolb c s then Ok (false, s, src)
    else match src with
         | [] => Ok (false, s, [])
         | x :: src1 =>
             let! s1 := cv_write c s x in
             hasItemsFromIter s1 src1
         end.

  (** ConvertReadIter::hasItems with implicitFlush, iterConv.h:111-117 *)
  Definition ri_hasItems (s : S) (src : list A) : outcome (bool * S * list A) :=
    let! (h, s1, src1) := hasItemsFromIter s src in
    if h then Ok (true, s1, src1)
    else let! s2 := cv_flush c s1 in Ok (cv_has c s2, s2, src1).

  (** ConverterBase::getNextFromIter, iterConv.h:439-448; an exhausted source throws *)
  Fixpoint getNextFromIter (s : S) (src : list A) : outcome (B * S * list A) :=
    if cv_has c s then let! (b, s1) := cv_next c s in Ok (b, s1, src)
    else if cv_eolb c s then Throw
    else match src with
         | [] => Throw
         | x :: src1 => let! s1 := cv_write c s x in getNextFromIter s1 src1
         end.

  (** the reading loop [while (it.hasItems()) out.add(it.getNext());] over a
      ConvertReadIter; fuel bounds the number of items produced *)
  Fixpoint pull_n (fuel : nat) (s : S) (src : list A) : outcome (list B) :=
    let! (h, s1, src1) := ri_hasItems s src in
    if h then
      match fuel with
      | O => NoFuel
      | Datatypes.S f =>
          let! (b, s2, src2) := getNextFromIter s1 src1 in
          let! r := pull_n f s2 src2 in
          Ok (b :: r)
      end
    else Ok [].
End Drivers.
