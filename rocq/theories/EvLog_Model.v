(** Model of the journal of EventDB::EventLog, utils/eventdb.cpp, utils/eventdb.h: events are appended to a file and read back.

    The file is a list of bytes.  Times are unbounded numbers (time_t has 64 bits), except in the difference of two times.  The
    random bytes that fill up the last block (eventdb.cpp:107) come from a parameter [pad].  Not modelled here: the cells,
    replication, the limit of the write speed.  *)
From Verif Require Import Common EvLog_Spec.
Open Scope Z_scope.

Definition le16 (v : Z) : list Z := [v mod 256; v / 256 mod 256].
Definition un16 (a b : Z) : Z := a + 256 * b.
(** eventdb.h:169-178 Header *)
Record header := mkH { checksum : Z; recordType : Z; recordSize : Z; timeadv : Z }.
Definition put_header (h : header) : list Z := le16 (checksum h) ++ le16 (recordType h) ++ le16 (recordSize h) ++ le16 (timeadv h).
Definition blockSize : Z := 8.
(** eventdb.cpp:25: 'C' + 256 * 'S' *)
Definition initialChecksum : Z := 67 + 256 * 83.
(** eventdb.cpp:27-31 *)
Definition updateChecksum (l : list Z) (c : Z) : Z := fold_left (fun c b => (c + b) mod 65536) l c.
Definition add16 (a b : Z) : Z := (a + b) mod 65536.
(** eventdb.h:530-536 WriteState *)
Record wst := mkW { cs : Z; last : Z }.

(** eventdb.cpp:68-122 writeBlock: bytes, new state, offset *)
Definition writeBlock (ty : Z) (data : list Z) (cur : Z) (pad : nat -> Z) (w : wst) : outcome (list Z * wst * Z) :=
  if 65535 <? ty then Throw
  else if 65535 * blockSize <? len data then Throw
  else
    let timediff := (cur - last w) mod 2 ^ 64 in
    let h1 := mkH (cs w) 65535 0 (Z.shiftr timediff 16 mod 65536) in
    let '(out1, cs1) := if 65535 <? timediff then (put_header h1, add16 (add16 (cs w) (timeadv h1)) (recordType h1)) else ([], cs w) in
    let h := mkH cs1 (ty mod 65536) ((len data + blockSize - 1) / blockSize mod 65536) (timediff mod 65536) in
    let remain := recordSize h * blockSize - len data in
    let padding := map pad (seq 0 (Z.to_nat remain)) in
    let c := updateChecksum padding (updateChecksum data cs1) in
    Ok (out1 ++ put_header h ++ data ++ padding, mkW (add16 (add16 c (timeadv h)) (recordType h)) cur, len out1 / blockSize).

(** the ends of a rescan: at an offset with a checksum and a time, or with an exception *)
Inductive fin := Fin (ofs c time : Z) | BadSum | Short | Fuel.
(** eventdb.cpp:288-314 parseBlock: the header, the data of the record, new checksum and time, the rest of the input; an input that
    is too short is an exception of the stream *)
Inductive parsed := Block (h : header) (data : list Z) (c time : Z) (adv : Z) (rest : list Z) | PBadSum | PShort.
Definition parseBlock (input : list Z) (c time : Z) (noinit : bool) : parsed :=
  match input with
  | a :: b :: d :: e :: f :: g :: i :: j :: rest =>
      let h := mkH (un16 a b) (un16 d e) (un16 f g) (un16 i j) in
      if negb (checksum h =? c) && negb noinit then PBadSum
      else
        let c := checksum h in
        if (recordType h =? 65535) && (recordSize h =? 0)
        then Block h [] (add16 (add16 c (timeadv h)) (recordType h)) (time + Z.shiftl (timeadv h) 16) 8 rest
        else
          let sz := recordSize h * blockSize in
          if len rest <? sz then PShort
          else
            let data := firstn (Z.to_nat sz) rest in
            Block h data (add16 (add16 (updateChecksum data c) (timeadv h)) (recordType h)) (time + timeadv h) (8 + sz) (skipn (Z.to_nat sz) rest)
  | _ => PShort
  end.
(** eventdb.cpp:319-347 rescan, for one listener; [ofs] and [to] are places in the file, [input] is the file from [ofs] *)
Fixpoint rescan (fuel : nat) (input : list Z) (ofs to : Z) (c time : Z) (noinit : bool) : list delivery * fin :=
  if ofs <? to then
    match fuel with
    | O => ([], Fuel)
    | S fuel =>
        match parseBlock input c time noinit with
        | PBadSum => ([], BadSum)
        | PShort => ([], Short)
        | Block h data c1 t1 adv rest =>
            let '(ds, r) := rescan fuel rest (ofs + adv) to c1 t1 false in
            (if negb (recordType h =? 65535) || negb (recordSize h =? 0) then (ofs / blockSize, t1, recordType h, data) :: ds else ds, r)
        end
    end
  else ([], Fin ofs c time).
(** eventdb.cpp:252-255: the whole file is read when it is opened *)
Definition open_ (file : list Z) : list delivery * fin := rescan (length file) file 0 (len file) initialChecksum 0 false.
(** eventdb.cpp:252-253 *)
Definition fresh : wst := mkW initialChecksum 0.

(** several calls of sendUpdate: eventdb.cpp:157-167, 191; each event comes with the random bytes of its padding *)
Fixpoint writes (l : list (event * (nat -> Z))) (w : wst) : outcome (list Z * wst) :=
  match l with
  | [] => Ok ([], w)
  | (e, pad) :: r =>
      let! p := writeBlock (etype e) (edata e) (etime e) pad w in
      let! q := writes r (snd (fst p)) in
      Ok (fst (fst p) ++ fst q, snd q)
  end.
(** eventdb.cpp:157-203 sendUpdate_trn: the new file, the new state, what the listeners get, the result *)
Definition sendUpdate (file : list Z) (w : wst) (e : event) (pad : nat -> Z) : outcome (list Z * wst * delivery * Z) :=
  let writePos := len file in
  let! p := writeBlock (etype e) (edata e) (etime e) pad w in
  let '(out, w1, offset) := p in
  let ofs := writePos + offset in
  let writePos1 := writePos + len out in
  Ok (file ++ out, w1, (ofs / blockSize, last w1, etype e, edata e), (writePos1 - len out) / blockSize + offset).

(** eventdb.cpp:270-280 readRecord: the bytes stored to the buffer, and the result *)
Definition readRecord (file : list Z) (offset : Z) (size : Z) (ty : Z) : outcome (list Z * Z) :=
  match skipn (Z.to_nat (offset * blockSize)) file with
  | a :: b :: d :: e :: f :: g :: i :: j :: rest =>
      let sz := un16 f g in
      if negb (un16 d e =? ty) then Throw
      else let size := if sz <? size then sz else size in Ok (firstn (Z.to_nat size) rest, sz)
  | _ => Throw
  end.

(** eventdb.cpp:38-57 addListenerAndSync: the file grows from [f1] to [f1 ++ f2] and to [f1 ++ f2 ++ f3] before the lock is
    taken; [junk]: the value of the variable lastTimestamp, which is not initialised (eventdb.cpp:45) *)
Definition addListenerAndSync (f1 f2 f3 : list Z) (junk : Z) : list delivery * fin :=
  let part input ofs to c time := rescan (length input) input ofs to c time false in
  match part f1 0 (len f1) initialChecksum junk with
  | (d1, Fin o1 c1 t1) =>
      match part (skipn (Z.to_nat o1) (f1 ++ f2)) o1 (len (f1 ++ f2)) c1 t1 with
      | (d2, Fin o2 c2 t2) =>
          let '(d3, r) := part (skipn (Z.to_nat o2) (f1 ++ f2 ++ f3)) o2 (len (f1 ++ f2 ++ f3)) c2 t2 in (d1 ++ d2 ++ d3, r)
      | (d2, r) => (d1 ++ d2, r)
      end
  | x => x
  end.

(** eventdb.cpp:399-411 rescan of a part of the file; [junk]: the checksum is not initialised, the check of the first header is
    off; the result is in blocks *)
Definition rescanRange (file : list Z) (from to : Z) (curTime : Z) (junk : Z) : list delivery * fin :=
  let from := from * blockSize in
  let to := to * blockSize in
  let to := if to =? 0 then len file else to in
  rescan (length file) (skipn (Z.to_nat from) file) from to junk curTime true.

(** eventdb.cpp:543-561 rescanOtherLog: an old log; each block is given to the listeners *)
Fixpoint rescanOther (fuel : nat) (input : list Z) (c time : Z) : list delivery * fin :=
  match input with
  | [] => ([], Fin 0 c time)
  | _ =>
      match fuel with
      | O => ([], Fuel)
      | S fuel =>
          match parseBlock input c time false with
          | PBadSum => ([], BadSum)
          | PShort => ([], Short)
          | Block h data c1 t1 adv rest => let '(ds, r) := rescanOther fuel rest c1 t1 in ((0, t1, recordType h, data) :: ds, r)
          end
      end
  end.
