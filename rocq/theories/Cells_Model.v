(** Model of the cells of EventDB::EventLog, utils/eventdb.cpp:471-541, 563-587: events that replace the older event of the same cell
    in a second file.  The file is a list of bytes.  Not modelled: a crash in the middle of an update, exceptions of listeners. *)
From Verif Require Import Common EvLog_Spec Cells_Spec EvLog_Model.
Open Scope Z_scope.

Definition le32 (v : Z) : list Z := le16 (v mod 65536) ++ le16 (v / 65536 mod 65536).
Definition un32 (a b c d : Z) : Z := un16 a b + 65536 * un16 c d.
(** eventdb.h:634-652: StFrame with FixedHeader, 16 bytes *)
Record stframe := mkSF { frameLen : Z; ftimestamp : Z; fcellId : Z; frecordType : Z; flength : Z }.
Definition put_stframe (h : stframe) : list Z :=
  le32 (frameLen h) ++ le32 (ftimestamp h) ++ le32 (fcellId h) ++ le16 (frecordType h) ++ le16 (flength h).
Definition get_stframe (file : list Z) (pos : Z) : option stframe :=
  match skipn (Z.to_nat pos) file with
  | a0 :: a1 :: a2 :: a3 :: b0 :: b1 :: b2 :: b3 :: c0 :: c1 :: c2 :: c3 :: d0 :: d1 :: e0 :: e1 :: _ =>
      Some (mkSF (un32 a0 a1 a2 a3) (un32 b0 b1 b2 b3) (un32 c0 c1 c2 c3) (un16 d0 d1) (un16 e0 e1))
  | _ => None
  end.
(** eventdb.h:654-661 StFrameInfo: offset and length; CellMap *)
Notation cmap := (list (Z * Z)).
Record cst := mkC { cfile : list Z; cellMap : cmap }.
(** eventdb.cpp:471-476 *)
Definition expandCellMap (m : cmap) (cell : Z) : outcome cmap :=
  if len m <=? cell then
    if len m + 10000 <? cell then Throw else Ok (m ++ repeat (0, 0) (Z.to_nat (cell + 1 - len m)))
  else Ok m.
(** a write of bytes at a place of the file *)
Definition overwrite (file : list Z) (pos : Z) (b : list Z) : list Z :=
  firstn (Z.to_nat pos) file ++ b ++ skipn (Z.to_nat pos + length b) file.
(** eventdb.cpp:478-517 updateStEvent_trn: the new state, and what the listeners get *)
Definition updateCell (s : cst) (u : cupd) : outcome (cst * cdelivery) :=
  let! m := expandCellMap (cellMap s) (ucell u) in
  let granSize := (len (udata u) + 7) / blockSize in
  let f := nth (Z.to_nat (ucell u)) m (0, 0) in
  let needSz := 16 + granSize * blockSize in
  let f := if snd f <? needSz then (len (cfile s), needSz) else f in
  let m := upd m (Z.to_nat (ucell u)) f in
  let hdr := mkSF (snd f) (utime u) (ucell u) (utype u) granSize in
  let remain := granSize * blockSize - len (udata u) in
  Ok (mkC (overwrite (cfile s) (fst f) (put_stframe hdr ++ udata u ++ repeat 0 (Z.to_nat remain))) m,
      (ucell u, fst f, utime u, utype u, udata u)).
(** eventdb.cpp:520-534 scanStEvents; a header that is not complete is undefined *)
Fixpoint scan (fuel : nat) (file : list Z) (position : Z) (m : cmap) : outcome cmap :=
  if position <? len file then
    match fuel with
    | O => NoFuel
    | S fuel =>
        match get_stframe file position with
        | None => Undef
        | Some h =>
            let! m := expandCellMap m (fcellId h) in
            scan fuel file (position + frameLen h) (upd m (Z.to_nat (fcellId h)) (position, frameLen h))
        end
    end
  else Ok m.
(** eventdb.cpp:225-230 open *)
Definition copen (file : list Z) : outcome cst := let! m := scan (length file) file 0 [] in Ok (mkC file m).
(** eventdb.cpp:563-587 loadStEvent *)
Definition loadStEvent (file : list Z) (offset : Z) : outcome cdelivery :=
  match get_stframe file offset with
  | None => Undef
  | Some h =>
      let datasz := flength h * blockSize in
      Ok (fcellId h, offset, ftimestamp h, frecordType h, firstn (Z.to_nat datasz) (skipn (Z.to_nat (offset + 16)) file))
  end.
(** eventdb.cpp:536-541 rescanStEvents *)
Fixpoint loadAll (file : list Z) (m : cmap) : outcome (list cdelivery) :=
  match m with
  | [] => Ok []
  | f :: r => let! x := loadStEvent file (fst f) in let! l := loadAll file r in Ok (x :: l)
  end.
Definition rescanCells (s : cst) : outcome (list cdelivery) := loadAll (cfile s) (cellMap s).
(** a sequence of updates *)
Fixpoint updates (s : cst) (h : list cupd) : outcome cst :=
  match h with
  | [] => Ok s
  | u :: r => let! p := updateCell s u in updates (fst p) r
  end.
Definition cempty : cst := mkC [] [].
