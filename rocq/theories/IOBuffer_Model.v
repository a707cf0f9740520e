(** Model of the stream buffer IOBuffer of
    /repo/src/lightspeed/base/streams/fileiobuff.h and fileiobuff.tcc, together with the
    source and the sink it is connected to.

    The buffer is used for reading and writing at the same time.  Simplifications: no other
    buffer is connected by setAutoflush; source and sink do not throw; positions are natural
    numbers without wrapping (they never exceed the buffer size) except in [peekCount]. *)
From Verif Require Import Common IOBuffer_Spec.

Section IOBuffer.
  Context {A : Type}.
  Variable B : nat.        (* template parameter bufferSize.  fileiobuff.h:52 *)

  (** The source: what it still has, and how much it is willing to deliver by each call
      ([k] stands for at most [S k] bytes; afterwards as much as is asked for).  Every call
      delivers something unless the end was reached, as fileio_ifc.h:20-34 demands.  [ready]
      are the answers of dataReady. *)
  Record source := Src { rest : list A; chunks : list nat; ready : list bool }.

  (** The sink: what it received, and how much it accepts by each call; every call accepts at
      least one byte.  fileio_ifc.h:112-121 *)
  Record sink := Snk { received : list A; accepts : list nat }.

  Definition limit (sched : list nat) (n : nat) : nat :=
    match sched with [] => n | k :: _ => Nat.min n (S k) end.

  (** IInputStream::read *)
  Definition srcRead (s : source) (n : nat) : list A * source :=
    let k := limit (chunks s) n in
    (firstn k (rest s), Src (skipn k (rest s)) (tl (chunks s)) (ready s)).

  Definition srcReady (s : source) : bool * source :=
    (hd false (ready s), Src (rest s) (chunks s) (tl (ready s))).

  (** IOutputStream::write *)
  Definition snkWrite (s : sink) (d : list A) : nat * sink :=
    let k := limit (accepts s) (length d) in
    (k, Snk (received s ++ firstn k d) (tl (accepts s))).

  (** IOutputStream::writeAll.  fileio_ifc.h:175-184 *)
  Fixpoint writeAll (fuel : nat) (s : sink) (d : list A) (done : nat) : outcome (nat * sink) :=
    match d with
    | [] => Ok (done, s)
    | _ =>
        match fuel with
        | O => NoFuel
        | S fuel =>
            let (x, s) := snkWrite s d in
            if x =? 0 then Ok (done, s) else writeAll fuel s (skipn x d) (done + x)
        end
    end.

  (** the members.  fileiobuff.h:199-219 *)
  Record iobuf := IO {
    buff : list A; rdpos : nat; wrpos : nat; rdend : nat; wrbeg : nat;
    eof : bool; outputClosed : bool; writeReserve : nat;
    targetIn : source; targetOut : sink }.

  (** IOBuffer(IInOutStream pointer); the content of the array is arbitrary.
      fileiobuff.tcc:25-27 *)
  Definition newBuf (content : list A) (i : source) (o : sink) : iobuf :=
    IO content B 0 B 0 false false 0 i o.

  (** reserveWrite.  fileiobuff.tcc:328-331 *)
  Definition reserveWrite (s : iobuf) (sz : nat) : iobuf :=
    IO (buff s) (rdpos s) (wrpos s) (rdend s) (wrbeg s) (eof s) (outputClosed s)
       (if B / 2 <? sz then B / 2 else sz) (targetIn s) (targetOut s).

  (** memcpy from and to the array; leaving it is undefined *)
  Definition copyOut (b : list A) (p n : nat) : outcome (list A) :=
    if p + n <=? length b then Ok (firstn n (skipn p b)) else Undef.

  Definition copyIn (b : list A) (p : nat) (d : list A) : outcome (list A) :=
    if p + length d <=? length b then Ok (firstn p b ++ d ++ skipn (p + length d) b) else Undef.

  (** adjustWritePos.  fileiobuff.tcc:254-263 *)
  Definition adjustWritePos (s : iobuf) : iobuf :=
    let w := if (rdpos s <? rdend s) && (rdpos s <? B - rdend s) then rdend s else 0 in
    IO (buff s) (rdpos s) w (rdend s) w (eof s) (outputClosed s) (writeReserve s)
       (targetIn s) (targetOut s).

  (** intFlush.  fileiobuff.tcc:239-251 *)
  Definition intFlush (s : iobuf) : outcome iobuf :=
    if wrbeg s <? wrpos s then
      let n := wrpos s - wrbeg s in
      let! d := copyOut (buff s) (wrbeg s) n in
      let! (x, o) := writeAll n (targetOut s) d 0 in
      Ok (adjustWritePos
            (IO (buff s) (rdpos s) (wrpos s) (rdend s) (wrbeg s) (eof s)
                (if x =? 0 then true else outputClosed s) (writeReserve s) (targetIn s) o))
    else Ok s.

  (** intFetch.  fileiobuff.tcc:63-80 *)
  Definition intFetch (s : iobuf) : outcome iobuf :=
    if eof s then Ok s
    else
      let! s := intFlush s in
      let p := writeReserve s in
      let (d, i) := srcRead (targetIn s) (B - p) in
      let! b := copyIn (buff s) p d in
      Ok (adjustWritePos
            (IO b p (wrpos s) (p + length d) (wrbeg s) (length d =? 0) (outputClosed s) p
                i (targetOut s))).

  (** read.  fileiobuff.tcc:35-59 *)
  Fixpoint read (fuel : nat) (s : iobuf) (size : nat) : outcome (list A * iobuf) :=
    match fuel with
    | O => NoFuel
    | S fuel =>
        if rdpos s <? rdend s then
          let n := rdend s - rdpos s in
          let n := if size <? n then size else n in
          let! d := copyOut (buff s) (rdpos s) n in
          Ok (d, IO (buff s) (rdpos s + n) (wrpos s) (rdend s) (wrbeg s) (eof s)
                    (outputClosed s) (writeReserve s) (targetIn s) (targetOut s))
        else if eof s then Ok ([], s)
        else let! s := intFetch s in read fuel s size
    end.

  (** getWriteSpace.  The difference of unsigned numbers must not be negative: [Undef] stands
      for the huge number it would give.  fileiobuff.tcc:83-85 *)
  Definition getWriteSpace (s : iobuf) : outcome nat :=
    let l := if (wrbeg s <? rdpos s) && (rdpos s <? rdend s) then rdpos s else B in
    if l <? wrpos s then Undef else Ok (l - wrpos s).

  Definition setOut (s : iobuf) (o : sink) : iobuf :=
    IO (buff s) (rdpos s) (wrpos s) (rdend s) (wrbeg s) (eof s) (outputClosed s)
       (writeReserve s) (targetIn s) o.

  (** write.  fileiobuff.tcc:88-120 *)
  Fixpoint write (fuel : nat) (s : iobuf) (d : list A) : outcome (nat * iobuf) :=
    match fuel with
    | O => NoFuel
    | S fuel =>
        let! sp := getWriteSpace s in
        if sp =? 0 then
          if wrbeg s <? wrpos s then
            let! s := intFlush s in write fuel s d
          else let (x, o) := snkWrite (targetOut s) d in Ok (x, setOut s o)
        else if (wrpos s =? wrbeg s) && (sp <=? length d) then
          let (x, o) := snkWrite (targetOut s) d in Ok (x, setOut s o)
        else
          let n := if length d <? sp then length d else sp in
          let! b := copyIn (buff s) (wrpos s) (firstn n d) in
          Ok (n, IO b (rdpos s) (wrpos s + n) (rdend s) (wrbeg s) (eof s) (outputClosed s)
                    (writeReserve s) (targetIn s) (targetOut s))
    end.

  (** fetch.  fileiobuff.tcc:123-156 *)
  Definition fetch (s : iobuf) : outcome (nat * iobuf) :=
    if eof s then Ok (0, s)
    else
      let datasz := rdend s - rdpos s in
      let! s := intFlush s in
      if (rdend s =? B) && (rdpos s =? 0) then Ok (0, s)
      else
        let! s :=
          (if rdend s =? B then
             let! d := copyOut (buff s) (rdpos s) datasz in
             let! b := copyIn (buff s) 0 d in
             Ok (IO b 0 (wrpos s) datasz (wrbeg s) (eof s) (outputClosed s) (writeReserve s)
                    (targetIn s) (targetOut s))
           else Ok s) in
        let (d, i) := srcRead (targetIn s) (B - rdend s) in
        let! b := copyIn (buff s) (rdend s) d in
        let s := adjustWritePos
          (IO b (rdpos s) (wrpos s) (rdend s + length d) (wrbeg s) (eof s) (outputClosed s)
              (writeReserve s) i (targetOut s)) in
        Ok (length d,
            IO (buff s) (rdpos s) (wrpos s) (rdend s) (wrbeg s)
               (if length d =? 0 then true else eof s) (outputClosed s) (writeReserve s)
               (targetIn s) (targetOut s)).

  (** the loop of peek.  fileiobuff.tcc:168-177 *)
  Fixpoint peek_loop (fuel : nat) (s : iobuf) (n size : nat) : outcome (nat * iobuf) :=
    match fuel with
    | O => NoFuel
    | S fuel =>
        if n <? size then
          let (r, i) := if n =? 0 then (true, targetIn s) else srcReady (targetIn s) in
          let s := IO (buff s) (rdpos s) (wrpos s) (rdend s) (wrbeg s) (eof s) (outputClosed s)
                      (writeReserve s) i (targetOut s) in
          if r then
            let! (k, s) := fetch s in
            if k =? 0 then Ok (n, s) else peek_loop fuel s (n + k) size
          else Ok (n, s)
        else Ok (n, s)
    end.

  (** canRead.  fileiobuff.tcc:210-225 *)
  Definition canRead (s : iobuf) : outcome (bool * iobuf) :=
    if rdpos s <? rdend s then Ok (true, s)
    else if eof s then Ok (false, s)
    else let! s := intFetch s in Ok (negb (eof s), s).

  (** peek with size > 0.  fileiobuff.tcc:160-185 *)
  Definition peek (s : iobuf) (size : nat) : outcome (list A * iobuf) :=
    let! (n, s) := peek_loop (S (S B)) s (rdend s - rdpos s) size in
    let n := if size <? n then size else n in
    let! d := copyOut (buff s) (rdpos s) n in
    Ok (d, s).

  (** peek with size 0: the number of bytes ready, computed as rdpos - rdend on 64 bit
      numbers.  fileiobuff.tcc:162-165 *)
  Definition peekCount (s : iobuf) : outcome (N * iobuf) :=
    let! (c, s) := canRead s in
    Ok ((if c then (N.of_nat (rdpos s) + 2 ^ 64 - N.of_nat (rdend s)) mod 2 ^ 64 else 0)%N, s).

  (** flush; flushing the target has no effect on the bytes.  fileiobuff.tcc:233-236 *)
  Definition flush (s : iobuf) : outcome iobuf := intFlush s.

  (** discardInput.  fileiobuff.h:172-176 *)
  Definition discardInput (s : iobuf) (count : nat) : iobuf :=
    let l := rdend s - rdpos s in
    let count := if l <? count then l else count in
    IO (buff s) (rdpos s + count) (wrpos s) (rdend s) (wrbeg s) (eof s) (outputClosed s)
       (writeReserve s) (targetIn s) (targetOut s).

  (** getInputLength.  fileiobuff.h:169 *)
  Definition getInputLength (s : iobuf) : nat := rdend s - rdpos s.

  (** putBack.  fileiobuff.tcc:288-313 *)
  Definition putBack (s : iobuf) (seq : list A) : outcome iobuf :=
    let sz := rdend s - rdpos s in
    let n := length seq in
    if B - sz <? n then Throw
    else if n <? rdpos s then
      let! s :=
        (if (wrpos s <? rdpos s) && (rdpos s <? wrpos s + n) then intFlush s else Ok s) in
      let! b := copyIn (buff s) (rdpos s - n) seq in
      Ok (IO b (rdpos s - n) (wrpos s) (rdend s) (wrbeg s) (eof s) (outputClosed s)
             (writeReserve s) (targetIn s) (targetOut s))
    else Throw.

  (** One call; the loops of read and write need two rounds at most. *)
  Definition step (s : iobuf) (o : iop A) : outcome (ianswer A * iobuf) :=
    match o with
    | IRead n => let! (d, s) := read 2 s n in Ok (IBytes d, s)
    | IPeek n => let! (d, s) := peek s n in Ok (IBytes d, s)
    | ICanRead => let! (c, s) := canRead s in Ok (IBool c, s)
    | IFetch => let! (k, s) := fetch s in Ok (ICount k, s)
    | IDiscard n => Ok (IUnit, discardInput s n)
    | IWrite d => let! (k, s) := write 2 s d in Ok (ICount k, s)
    | IFlush => let! s := flush s in Ok (IUnit, s)
    end.

  Fixpoint run (s : iobuf) (os : list (iop A)) : outcome (list (ianswer A) * iobuf) :=
    match os with
    | [] => Ok ([], s)
    | o :: os => let! (a, s) := step s o in let! (r, s) := run s os in Ok (a :: r, s)
    end.

  (** Histories that never write while the buffer is completely filled with input that was
      not read (getInputLength() = getInputCapacity()). *)
  Definition leaves_room_step (s : iobuf) (o : iop A) : Prop :=
    match o with IWrite _ => getInputLength s < B | _ => True end.

  Fixpoint leaves_room (s : iobuf) (os : list (iop A)) : Prop :=
    match os with
    | [] => True
    | o :: os =>
        leaves_room_step s o /\
        match step s o with Ok (_, s) => leaves_room s os | _ => True end
    end.
End IOBuffer.
Arguments source : clear implicits.
Arguments sink : clear implicits.
Arguments iobuf : clear implicits.
