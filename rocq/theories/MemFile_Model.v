(** Model of the files in memory of /repo/src/lightspeed/base/streams/memfile.h, memfile.tcc
    and memfile.cpp.

    A byte of the buffer is [None] as long as it was not written: the array of bytes grows
    without initialising them (/repo/src/lightspeed/base/containers/autoArray.tcc:102-109,
    /repo/src/lightspeed/base/objmanip.h:369-371).  Simplification: the allocator never fails. *)
From Verif Require Import Common MemFile_Spec.
Local Open Scope N_scope.

(** natural is a 64 bit number: sums and differences wrap *)
Definition wrap (n : N) : N := n mod 2 ^ 64.
Definition sub64 (a b : N) : N := wrap (a + 2 ^ 64 - b).

(** memcpy(buffer, data()+pos, n): the bytes read; reading outside of the array is undefined *)
Definition copyOut (c : list cell) (pos n : N) : outcome (list cell) :=
  if pos + n <=? flen c then Ok (firstn (N.to_nat n) (skipn (N.to_nat pos) c)) else Undef.

(** memcpy(data()+pos, buffer, n) *)
Definition copyIn (c : list cell) (pos : N) (d : list N) : outcome (list cell) :=
  if pos + flen d <=? flen c
  then Ok (firstn (N.to_nat pos) c ++ map Some d ++ skipn (N.to_nat pos + length d)%nat c)
  else Undef.

(** AutoArrayT::resize.  autoArray.tcc:102-109, trunc 181-184 *)
Definition resize (c : list cell) (n : N) : list cell :=
  if flen c <? n then c ++ repeat None (N.to_nat (n - flen c))
  else if n <? flen c then firstn (N.to_nat n) c
  else c.

(** class MemFile: filebuffer, pos, appendMode, readOnly; appendMode is [None] while it was
    not set.  memfile.h:55-58 *)
Record memfile := MF { filebuffer : list cell; pos : N; appendMode : option bool; readOnly : bool }.

(** MemFile(): appendMode is not initialised.  memfile.h:38 *)
Definition newMemFile : memfile := MF [] 0 None false.

(** read(buffer, size, offset) const.  memfile.tcc:73-83 *)
Definition readAt (f : memfile) (size offset : N) : outcome (list cell) :=
  let l := flen (filebuffer f) in
  if l <=? offset then Ok []
  else
    let endrd := wrap (offset + size) in
    let endrd := if l <=? endrd then l else endrd in
    copyOut (filebuffer f) offset (sub64 endrd offset).

(** read(buffer, size).  memfile.tcc:20-30 *)
Definition read (f : memfile) (size : N) : outcome (list cell * memfile) :=
  let l := flen (filebuffer f) in
  if l <=? pos f then Ok ([], f)
  else
    let endrd := wrap (pos f + size) in
    let endrd := if l <=? endrd then l else endrd in
    let rdl := sub64 endrd (pos f) in
    let! b := copyOut (filebuffer f) (pos f) rdl in
    Ok (b, MF (filebuffer f) (wrap (pos f + rdl)) (appendMode f) (readOnly f)).

(** peek.  memfile.tcc:51-55 *)
Definition peek (f : memfile) (size : N) : outcome (list cell) := readAt f size (pos f).

(** write(buffer, size).  memfile.tcc:35-46 *)
Definition write (f : memfile) (d : list N) : outcome (N * memfile) :=
  match appendMode f with
  | None => Undef
  | Some append =>
      let l := flen (filebuffer f) in
      let wrpos := if append then l else pos f in
      let endrd := wrap (wrpos + flen d) in
      let c := if l <=? endrd then resize (filebuffer f) endrd else filebuffer f in
      let! c := copyIn c wrpos d in
      Ok (flen d, MF c (wrap (pos f + flen d)) (appendMode f) (readOnly f))
  end.

(** write(buffer, size, offset).  memfile.tcc:87-97 *)
Definition writeAt (f : memfile) (d : list N) (offset : N) : outcome (N * memfile) :=
  let l := flen (filebuffer f) in
  let endrd := wrap (offset + flen d) in
  let c := if l <=? endrd then resize (filebuffer f) endrd else filebuffer f in
  let! c := copyIn c offset d in
  Ok (flen d, MF c (pos f) (appendMode f) (readOnly f)).

(** setSize.  memfile.tcc:101-104 *)
Definition setSize (f : memfile) (n : N) : memfile :=
  MF (resize (filebuffer f) n) (pos f) (appendMode f) (readOnly f).

(** size.  memfile.tcc:108-111 *)
Definition size (f : memfile) : N := flen (filebuffer f).

(** canRead.  memfile.tcc:59-62 *)
Definition canRead (f : memfile) : bool := pos f <? flen (filebuffer f).

(** canWrite.  memfile.tcc:66-69 *)
Definition canWrite (f : memfile) : bool := negb (readOnly f).

(** setPos, closeOutput, empty, clear, setAppendMode.  memfile.h:33, 36, 41-42, 49 *)
Definition setPos (f : memfile) (p : N) : memfile :=
  MF (filebuffer f) p (appendMode f) (readOnly f).
Definition closeOutput (f : memfile) : memfile :=
  MF (filebuffer f) (pos f) (appendMode f) true.
Definition empty (f : memfile) : bool := flen (filebuffer f) =? 0.
Definition clear (f : memfile) : memfile := MF [] 0 (appendMode f) (readOnly f).
Definition setAppendMode (f : memfile) (b : bool) : memfile :=
  MF (filebuffer f) (pos f) (Some b) (readOnly f).

(** One call of the public interface. *)
Definition step (f : memfile) (o : fop) : outcome (fanswer * memfile) :=
  match o with
  | FRead n => let! (b, f) := read f n in Ok (FBytes b, f)
  | FPeek n => let! b := peek f n in Ok (FBytes b, f)
  | FReadAt n off => let! b := readAt f n off in Ok (FBytes b, f)
  | FWrite d => let! (n, f) := write f d in Ok (FNum n, f)
  | FWriteAt d off => let! (n, f) := writeAt f d off in Ok (FNum n, f)
  | FSetSize n => Ok (FDone, setSize f n)
  | FSetPos p => Ok (FDone, setPos f p)
  | FSize => Ok (FNum (size f), f)
  | FCanRead => Ok (FBool (canRead f), f)
  | FEmpty => Ok (FBool (empty f), f)
  | FClear => Ok (FDone, clear f)
  end.

Fixpoint run (f : memfile) (os : list fop) : outcome (list fanswer * memfile) :=
  match os with
  | [] => Ok ([], f)
  | o :: os => let! (a, f) := step f o in let! (r, f) := run f os in Ok (a :: r, f)
  end.

(** class MemFileStr: the text is not changed, pos moves.  memfile.h:63-90 *)
Record strfile := SF { text : list N; spos : N }.

(** memcpy out of the text *)
Definition copyText (t : list N) (pos n : N) : outcome (list N) :=
  if pos + n <=? flen t then Ok (firstn (N.to_nat n) (skipn (N.to_nat pos) t)) else Undef.

(** MemFileStr::read(buffer, size).  memfile.cpp:17-23 *)
Definition sread (f : strfile) (size : N) : outcome (list N * strfile) :=
  let remain := sub64 (flen (text f)) (spos f) in
  let size := if remain <? size then remain else size in
  let! b := copyText (text f) (spos f) size in
  Ok (b, SF (text f) (wrap (spos f + size))).

(** MemFileStr::peek.  memfile.cpp:29-34 *)
Definition speek (f : strfile) (size : N) : outcome (list N) :=
  let remain := sub64 (flen (text f)) (spos f) in
  let size := if remain <? size then remain else size in
  copyText (text f) (spos f) size.

(** MemFileStr::canRead.  memfile.cpp:36-38 *)
Definition scanRead (f : strfile) : bool := spos f <? flen (text f).

(** MemFileStr::read(buffer, size, offset).  memfile.cpp:44-53 *)
Definition sreadAt (f : strfile) (size offset : N) : outcome (list N) :=
  if flen (text f) <? offset then Ok []
  else
    let remain := sub64 (flen (text f)) offset in
    let size := if remain <? size then remain else size in
    copyText (text f) offset size.

(** MemFileStr::setPos.  memfile.h:77 *)
Definition ssetPos (f : strfile) (p : N) : strfile := SF (text f) p.
