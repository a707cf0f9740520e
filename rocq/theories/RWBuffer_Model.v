(** Model of the item buffers ReadBuffer and WriteBuffer of
    /repo/src/lightspeed/base/containers/buffer.h, together with the iterators behind them.

    Simplifications: items are copied without throwing; positions are natural numbers
    without wrapping; the sink has unlimited space. *)
From Verif Require Import Common RWBuffer_Spec.

Section RWBuffer.
  Context {A : Type}.

  (** An iterator to read from: what it still has, how much it delivers by each blockRead
      ([k] stands for at most [S k] items, afterwards as much as is asked for), and whether
      blockRead throws IteratorNoMoreItems at the end or returns 0 there, as SeqFileInput does
      (streams/fileio.h:113-121). *)
  Record source := Src { rest : list A; chunks : list nat; throws : bool }.

  (** An iterator to write to: what it received and how much it accepts by each blockWrite. *)
  Record sink := Snk { received : list A; accepts : list nat }.

  Definition limit (sched : list nat) (n : nat) : nat :=
    match sched with [] => n | k :: _ => Nat.min n (S k) end.

  (** blockRead(buffer, false) for a buffer of n items; [None] is the exception *)
  Definition blockRead (s : source) (n : nat) : option (list A) * source :=
    let k := limit (chunks s) n in
    match rest s with
    | [] => (if throws s then None else Some [], Src [] (tl (chunks s)) (throws s))
    | _ => (Some (firstn k (rest s)), Src (skipn k (rest s)) (tl (chunks s)) (throws s))
    end.

  (** blockWrite *)
  Definition blockWrite (s : sink) (d : list A) : nat * sink :=
    let k := limit (accepts s) (length d) in
    (k, Snk (received s ++ firstn k d) (tl (accepts s))).

  Definition setItem (b : list A) (i : nat) (x : A) : outcome (list A) :=
    if i <? length b then Ok (firstn i b ++ x :: skipn (S i) b) else Undef.

  Definition getItem (b : list A) (i : nat) : outcome A :=
    match nth_error b i with Some x => Ok x | None => Undef end.

  (** the loop "while (rdpos < wrpos) buffArr(x++) = buffArr[rdpos++]"; n is wrpos - rdpos.
      buffer.h:353-354 and 415-417 *)
  Fixpoint shift (n : nat) (b : list A) (x rd : nat) : outcome (list A) :=
    match n with
    | O => Ok b
    | S n =>
        let! v := getItem b rd in
        let! b := setItem b x v in
        shift n b (S x) (S rd)
    end.

  (** * ReadBuffer *)

  (** buffer.h:130-135 *)
  Record rbuf := RB { rarr : list A; rrd : nat; rwr : nat; noItems : bool; rsrc : source }.

  (** the constructor; the content of the array is arbitrary.  buffer.h:29-31 *)
  Definition newR (content : list A) (s : source) : rbuf := RB content 0 0 false s.

  (** isEmpty.  buffer.h:370-372 *)
  Definition rempty (s : rbuf) : bool := rwr s <=? rrd s.

  (** load after the possible compaction: false stands for the exception.
      buffer.h:361-367 *)
  Definition loadTail (s : rbuf) : outcome (bool * rbuf) :=
    let sp := length (rarr s) - rwr s in
    match blockRead (rsrc s) sp with
    | (Some d, i) =>
        if rwr s + length d <=? length (rarr s) then
          Ok (true, RB (firstn (rwr s) (rarr s) ++ d ++ skipn (rwr s + length d) (rarr s))
                       (rrd s) (rwr s + length d) false i)
        else Undef
    | (None, i) =>
        let s := RB (rarr s) (rrd s) (rwr s) (noItems s) i in
        Ok (negb (rempty s), s)
    end.

  (** load.  buffer.h:349-368 *)
  Definition load (s : rbuf) : outcome (bool * rbuf) :=
    if length (rarr s) - rwr s =? 0 then
      if rrd s =? 0 then Ok (true, s)
      else
        let n := rwr s - rrd s in
        let! b := shift n (rarr s) 0 (rrd s) in
        loadTail (RB b 0 n (noItems s) (rsrc s))
    else loadTail s.

  (** getNext.  buffer.h:316-319 *)
  Definition getNext (s : rbuf) : outcome (ranswer A * rbuf) :=
    let! (ok, s) := (if rempty s then load s else Ok (true, s)) in
    if ok then
      let! x := getItem (rarr s) (rrd s) in
      Ok (RItem x, RB (rarr s) (S (rrd s)) (rwr s) (noItems s) (rsrc s))
    else Ok (RNoItems, s).

  (** peek.  buffer.h:322-325 *)
  Definition peek (s : rbuf) : outcome (ranswer A * rbuf) :=
    let! (ok, s) := (if rempty s then load s else Ok (true, s)) in
    if ok then let! x := getItem (rarr s) (rrd s) in Ok (RItem x, s)
    else Ok (RNoItems, s).

  (** hasItems.  buffer.h:328-338 *)
  Definition hasItems (s : rbuf) : outcome (bool * rbuf) :=
    if rempty s then
      if noItems s then Ok (false, s)
      else
        let! (ok, s) := load s in
        let s := if ok then s else RB (rarr s) (rrd s) (rwr s) true (rsrc s) in
        Ok (negb (rempty s), s)
    else Ok (true, s).

  (** unget(item).  buffer.h:375-381 *)
  Definition unget (s : rbuf) (x : A) : outcome (ranswer A * rbuf) :=
    if 0 <? rrd s then
      let! b := setItem (rarr s) (rrd s - 1) x in
      Ok (RDone, RB b (rrd s - 1) (rwr s) (noItems s) (rsrc s))
    else Ok (RNoSpace, s).

  (** unget().  buffer.h:384-390 *)
  Definition back (s : rbuf) : ranswer A * rbuf :=
    if 0 <? rrd s then (RDone, RB (rarr s) (rrd s - 1) (rwr s) (noItems s) (rsrc s))
    else (RNoSpace, s).

  (** the loop of peek(n).  buffer.h:468-470 *)
  Fixpoint peekLoop (fuel : nat) (s : rbuf) (n : nat) : outcome (bool * rbuf) :=
    match fuel with
    | O => NoFuel
    | S fuel =>
        if rwr s - rrd s <=? n then
          let! (ok, s) := load s in
          if ok then peekLoop fuel s n else Ok (false, s)
        else Ok (true, s)
    end.

  (** peek(n).  buffer.h:462-472 *)
  Definition peekAt (fuel : nat) (s : rbuf) (n : nat) : outcome (ranswer A * rbuf) :=
    if length (rarr s) <=? n then Ok (RNoItems, s)
    else
      let! (ok, s) := peekLoop fuel s n in
      if ok then let! x := getItem (rarr s) n in Ok (RItem x, s) else Ok (RNoItems, s).

  Definition rstep (s : rbuf) (o : rop A) : outcome (ranswer A * rbuf) :=
    match o with
    | RHas => let! (b, s) := hasItems s in Ok (RBool b, s)
    | RNext => getNext s
    | RPeek => peek s
    | RUnget x => unget s x
    | RBack => Ok (back s)
    end.

  Fixpoint rrun (s : rbuf) (os : list (rop A)) : outcome (list (ranswer A) * rbuf) :=
    match os with
    | [] => Ok ([], s)
    | o :: os => let! (a, s) := rstep s o in let! (r, s) := rrun s os in Ok (a :: r, s)
    end.

  (** * WriteBuffer *)

  (** buffer.h:277-280 *)
  Record wbuf := WB { warr : list A; wrd : nat; wwr : nat; wsnk : sink }.

  (** the constructor.  buffer.h:161-163 *)
  Definition newW (content : list A) (s : sink) : wbuf := WB content 0 0 s.

  (** isEmpty and isFull.  buffer.h:435-442 *)
  Definition wempty (s : wbuf) : bool := wwr s <=? wrd s.
  Definition wfull (s : wbuf) : bool := length (warr s) <=? wwr s.

  (** __fastflush.  buffer.h:404-422 *)
  Definition fastflush (s : wbuf) (nodatashift : bool) : outcome wbuf :=
    if wempty s then Ok (WB (warr s) 0 0 (wsnk s))
    else
      if wwr s <=? length (warr s) then
        let (k, o) := blockWrite (wsnk s) (firstn (wwr s - wrd s) (skipn (wrd s) (warr s))) in
        let rd := wrd s + k in
        if rd =? wwr s then Ok (WB (warr s) 0 0 o)
        else if nodatashift then Ok (WB (warr s) rd (wwr s) o)
        else
          let x := wwr s - rd in
          let! b := shift x (warr s) 0 rd in
          Ok (WB b 0 (wwr s - x) o)
      else Undef.

  (** write.  buffer.h:393-396 *)
  Definition write (s : wbuf) (x : A) : outcome wbuf :=
    let! s := (if wfull s then fastflush s false else Ok s) in
    let! b := setItem (warr s) (wwr s) x in
    Ok (WB b (wrd s) (S (wwr s)) (wsnk s)).

  (** the loop of flush.  buffer.h:399 *)
  Fixpoint flushLoop (fuel : nat) (s : wbuf) : outcome wbuf :=
    if wempty s then Ok s
    else match fuel with
         | O => NoFuel
         | S fuel => let! s := fastflush s true in flushLoop fuel s
         end.

  (** flush; every round writes at least one item.  buffer.h:398-401 *)
  Definition flush (s : wbuf) : outcome wbuf :=
    let! s := flushLoop (wwr s - wrd s) s in fastflush s false.

  (** unwrite.  buffer.h:444-450 *)
  Definition unwrite (s : wbuf) : outcome (wanswer A * wbuf) :=
    if wrd s <? wwr s then
      let! x := getItem (warr s) (wwr s - 1) in
      Ok (WItem x, WB (warr s) (wrd s) (wwr s - 1) (wsnk s))
    else Ok (WNoItems, s).

  Definition wstep (s : wbuf) (o : wop A) : outcome (wanswer A * wbuf) :=
    match o with
    | WWrite x => let! s := write s x in Ok (WUnit, s)
    | WFlush => let! s := flush s in Ok (WUnit, s)
    | WUnwrite => unwrite s
    end.

  Fixpoint wrun (s : wbuf) (os : list (wop A)) : outcome (list (wanswer A) * wbuf) :=
    match os with
    | [] => Ok ([], s)
    | o :: os => let! (a, s) := wstep s o in let! (r, s) := wrun s os in Ok (a :: r, s)
    end.

  (** Histories in which an item is written into a full buffer (isFull) only when the sink
      takes whole blocks. *)
  Fixpoint whole_blocks (s : wbuf) (os : list (wop A)) : Prop :=
    match os with
    | [] => True
    | o :: os =>
        match o with WWrite _ => wfull s = false \/ accepts (wsnk s) = [] | _ => True end /\
        match wstep s o with Ok (_, s) => whole_blocks s os | _ => True end
    end.
End RWBuffer.
Arguments source : clear implicits.
Arguments sink : clear implicits.
Arguments rbuf : clear implicits.
Arguments wbuf : clear implicits.
