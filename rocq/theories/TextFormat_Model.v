(** Model of the text formatter, src/lightspeed/base/text/textFormat.h, textFormat.tcc and
    the integer part of textFormat.cpp, at character type char, without a number formatter
    object.  Characters are numbers; [natural] has 64 bits.  Texts handed over by pointer
    are modelled by their contents: they are assumed to stay alive until the output. *)
From Coq Require Import ZArith.
From Verif Require Import Common.
Local Open Scope Z_scope.

Definition wrap64 (v : Z) : Z := v mod 2 ^ 64.

(** ** Integers: textFormat.cpp *)

(** textFormat.cpp:22; the array also holds the terminating zero *)
Definition hexChars : list Z :=
  map (fun d => 48 + Z.of_nat d) (seq 0 10) ++ map (fun d => 65 + Z.of_nat d) (seq 0 26)
  ++ map (fun d => 97 + Z.of_nat d) (seq 0 26) ++ [0].

(** textFormat.cpp:25-36: the characters written so far; [room] is the number of characters
    the buffer has behind the start.  The size argument never changes in the recursion. *)
Fixpoint formatUnsigned (fuel : nat) (room : nat) (num base : Z) : outcome (list Z) :=
  if num =? 0 then Ok []
  else if base =? 0 then Undef
  else match fuel with
       | O => NoFuel
       | S f =>
           let! c := formatUnsigned f room (num / base) base in
           if Nat.leb room (length c) then Undef
           else match nth_error hexChars (Z.to_nat (num mod base)) with
                | Some x => Ok (c ++ [x])
                | None => Undef
                end
       end.

(** textFormat.cpp:39-55 with a buffer of [room] characters, at least 2; the zero behind the
    text is written too *)
Definition numberToStringUnsigned (num : Z) (room : nat) (base : Z) : outcome (list Z) :=
  if num =? 0 then Ok [48]
  else let! x := formatUnsigned 64 room num base in
       if Nat.leb room (length x) then Undef else Ok x.

(** textFormat.cpp:57-78 at a signed type of [w] bits, for at least 4 characters of room *)
Definition numberToStringSigned (w : Z) (num : Z) (room : nat) (base : Z) : outcome (list Z) :=
  if num =? 0 then Ok [48]
  else if num <? 0 then
    if num =? - 2 ^ (w - 1) then Undef
    else let! z := formatUnsigned 64 (room - 1) (- num) base in
         if Nat.leb (room - 1) (length z) then Undef else Ok (45 :: z)
  else let! x := formatUnsigned 64 room num base in
       if Nat.leb room (length x) then Undef else Ok x.

(** ** The formatter *)

(** textFormat.h:176-185; a null pointer is [None] *)
Record ParamItem := mkItem { ptr : option (list Z); len : nat }.

Definition isDirectRef (i : ParamItem) : bool :=
  match ptr i with Some _ => true | None => Nat.eqb (len i) 0 end.

(** textFormat.h:194-202 *)
Record formatter := mkFormatter {
  pattern : list Z;
  buff : list Z;
  paramList : list ParamItem;
  base : Z;
  newline : list Z }.

(** textFormat.tcc:496-500 *)
Definition resetArgs (st : formatter) : formatter :=
  mkFormatter (pattern st) [] [] (base st) (newline st).

(** textFormat.tcc:82-101 *)
Definition setPattern (st : formatter) (p : list Z) : formatter :=
  resetArgs (mkFormatter p (buff st) (paramList st) (base st) (newline st)).

(** staticAlloc.h:21-35 and autoArray.tcc:23-52: the list has room for 30 items *)
Definition param_max : nat := 30.
Definition addParam (st : formatter) (i : ParamItem) : outcome formatter :=
  if Nat.leb param_max (length (paramList st)) then Throw
  else Ok (mkFormatter (pattern st) (buff st) (paramList st ++ [i]) (base st) (newline st)).

(** textFormat.tcc:386-397, 475-481 and 486-493: the characters are copied, then the end
    is noted *)
Definition setArgChar (st : formatter) (t : list Z) : outcome formatter :=
  let b := buff st ++ t in
  addParam (mkFormatter (pattern st) b (paramList st) (base st) (newline st)) (mkItem None (length b)).

(** the arguments of operator <<: a string by pointer (a default string has the null
    pointer), a text that is copied, a character, numbers *)
Inductive arg :=
| ADirect (p : option (list Z))
| ACopied (t : list Z)
| AChar (c : Z)
| AInt (v : Z)            (* int *)
| ALong (v : Z)           (* integer, linteger *)
| AUInt (v : Z)           (* unsigned int, natural, lnatural *).

(** textFormat.tcc:104-152 and 420-434 *)
Definition addArg (st : formatter) (a : arg) : outcome formatter :=
  match a with
  | ADirect p => addParam st (mkItem p (match p with Some t => length t | None => O end))
  | ACopied t => setArgChar st t
  | AChar c => setArgChar st [c]
  | AInt v => let! t := numberToStringSigned 32 v 100 (base st) in setArgChar st t
  | ALong v => let! t := numberToStringSigned 64 v 100 (base st) in setArgChar st t
  | AUInt v => let! t := numberToStringUnsigned v 100 (base st) in setArgChar st t
  end.

Fixpoint addArgs (st : formatter) (l : list arg) : outcome formatter :=
  match l with [] => Ok st | a :: r => let! st1 := addArg st a in addArgs st1 r end.

(** textFormat.tcc:202-211 *)
Record FormatInfo := mkInfo {
  space : Z; fillchar : option Z; alignRight : bool; forceSign : bool; signBeforeFill : bool }.
Definition defaultInfo : FormatInfo := mkInfo 8 None false false false.

(** reading at the end of the pattern is outside of it *)
Definition peek (s : list Z) : outcome Z := match s with c :: _ => Ok c | [] => Undef end.
Definition skip (s : list Z) : outcome (list Z) := match s with _ :: r => Ok r | [] => Undef end.

(** textFormat.tcc:249-255: the digits; the answer has no text when the pattern ended *)
Fixpoint spaceLoop (sp : Z) (s : list Z) : Z * list Z :=
  match s with
  | c :: r => if (48 <=? c) && (c <=? 57) then spaceLoop (wrap64 (sp * 10 + (c - 48))) r else (sp, s)
  | [] => (sp, [])
  end.

(** textFormat.tcc:256-265 *)
Definition parseEnd (nfo : FormatInfo) (sp : Z) (s : list Z) : outcome (bool * FormatInfo * list Z) :=
  match s with
  | [] => Ok (false, nfo, [])
  | z :: r =>
      if negb (z =? 125) then
        let nfo1 := mkInfo (space nfo) (Some z) (alignRight nfo) (forceSign nfo) (signBeforeFill nfo) in
        match r with
        | [] => Ok (false, nfo1, [])
        | z1 :: r1 =>
            if negb (z1 =? 125) then Ok (false, nfo1, r)
            else Ok (true, mkInfo sp (fillchar nfo1) (alignRight nfo) (forceSign nfo) (signBeforeFill nfo), r1)
        end
      else Ok (true, mkInfo sp (fillchar nfo) (alignRight nfo) (forceSign nfo) (signBeforeFill nfo), r)
  end.

(** textFormat.tcc:236-265: fill character, width and the end *)
Definition parseFill (nfo : FormatInfo) (s : list Z) : outcome (bool * FormatInfo * list Z) :=
  let! z := peek s in
  if (z <? 49) || (57 <? z) then
    let! r := skip s in
    let nfo1 := mkInfo (space nfo) (Some z) (alignRight nfo) (forceSign nfo) (signBeforeFill nfo) in
    match r with
    | [] => Ok (false, nfo1, [])
    | _ =>
        let nfo2 := mkInfo (space nfo) (Some z) true (forceSign nfo) (alignRight nfo) in
        let '(sp, r1) := spaceLoop 0 r in parseEnd nfo2 sp r1
    end
  else
    let nfo2 := mkInfo (space nfo) None (alignRight nfo) (forceSign nfo) false in
    let '(sp, r1) := spaceLoop 0 s in parseEnd nfo2 sp r1.

(** textFormat.tcc:213-266: the answer, the settings, and what is left of the pattern *)
Definition parseFormatInfo (s : list Z) : outcome (bool * FormatInfo * list Z) :=
  let! x := peek s in
  if negb (x =? 123) then Ok (false, defaultInfo, s)
  else
    let! s1 := skip s in
    match s1 with
    | [] => Ok (false, defaultInfo, [])
    | z :: s2 =>
        if z =? 43 then
          let nfo := mkInfo 8 None true true false in
          match s2 with [] => Ok (false, nfo, []) | _ => parseFill nfo s2 end
        else if z =? 45 then
          let nfo := mkInfo 8 None true false false in
          match s2 with [] => Ok (false, nfo, []) | _ => parseFill nfo s2 end
        else parseFill defaultInfo s1
    end.

(** textFormat.tcc:295-299 *)
Fixpoint indexLoop (idx : Z) (s : list Z) : Z * list Z :=
  match s with
  | c :: r => if (48 <=? c) && (c <=? 57) then indexLoop (wrap64 (idx * 10 + (c - 48))) r else (idx, s)
  | [] => (idx, [])
  end.

(** textFormat.tcc:311-319: the end of the nearest copied argument before item [p] *)
Fixpoint previousEnd (l : list ParamItem) (p : nat) : nat :=
  match p with
  | O => O
  | S q => match nth_error l q with
           | Some i => if negb (isDirectRef i) then len i else previousEnd l q
           | None => O
           end
  end.

(** arrayt.h:267-280 *)
Definition head (b : list Z) (n : nat) : list Z := firstn n b.
Definition mid (b : list Z) (pos n : nat) : list Z :=
  if Nat.leb (length b) pos then [] else firstn n (skipn pos b).

(** textFormat.tcc:301-322; the lengths never decrease from one copied argument to the
    next, a difference below zero would be a huge number *)
Definition fragment (st : formatter) (idx : Z) : outcome (list Z) :=
  if (1 <=? idx) && (idx <=? Z.of_nat (length (paramList st))) then
    let i := Z.to_nat (idx - 1) in
    match nth_error (paramList st) i with
    | None => Undef
    | Some itm =>
        if isDirectRef itm then Ok (match ptr itm with Some t => t | None => [] end)
        else if Nat.eqb i 0 then Ok (head (buff st) (len itm))
        else
          let from := previousEnd (paramList st) i in
          if Nat.ltb (len itm) from then Ok (skipn from (buff st))
          else Ok (mid (buff st) from (len itm - from))
    end
  else Ok [].

(** textFormat.tcc:326-354 *)
Definition formatted (nfo : FormatInfo) (fr : list Z) : list Z :=
  let n := Z.of_nat (length fr) in
  let rnsp0 := if space nfo <? n then 0 else space nfo - n in
  let hasSign := match fr with c :: _ => (c =? 45) || (c =? 43) | [] => false end in
  let reserveSign := forceSign nfo || match fr with c :: _ => c =? 45 | [] => false end in
  let rnsp := if reserveSign && (0 <? rnsp0) && negb hasSign then rnsp0 - 1 else rnsp0 in
  let sign := match fr with c :: _ => if hasSign then [c] else [43] | [] => [43] end in
  let fill := repeat (match fillchar nfo with Some c => c | None => 32 end) (Z.to_nat rnsp) in
  (if signBeforeFill nfo && reserveSign then sign else [])
  ++ (if alignRight nfo then fill else [])
  ++ (if negb (signBeforeFill nfo) && reserveSign then sign else [])
  ++ (if reserveSign && hasSign then skipn 1 fr else fr)
  ++ (if negb (alignRight nfo) then fill else []).

(** textFormat.tcc:289-355: one parameter, behind the percent sign *)
Definition parameter (st : formatter) (s : list Z) : outcome (list Z * list Z) :=
  let! y := peek s in
  let! (fmt, nfo, s1) := if y =? 123 then parseFormatInfo s else Ok (false, defaultInfo, s) in
  let '(idx, s2) := indexLoop 0 s1 in
  let s3 := match s2 with c :: r => if c =? 37 then r else s2 | [] => s2 end in
  let! fr := fragment st idx in
  Ok (if fmt then formatted nfo fr else fr, s3).

(** textFormat.tcc:276-357: every turn takes at least one character of the pattern *)
Fixpoint outputLoop (fuel : nat) (st : formatter) (s : list Z) : outcome (list Z) :=
  match s with
  | [] => Ok []
  | x :: r =>
      match fuel with
      | O => NoFuel
      | S f =>
          if x =? 10 then let! o := outputLoop f st r in Ok (newline st ++ o)
          else if negb (x =? 37) then let! o := outputLoop f st r in Ok (x :: o)
          else match r with
               | [] => let! o := outputLoop f st r in Ok (x :: o)
               | y :: r1 =>
                   if (y =? 37) || (y =? 10) then let! o := outputLoop f st r1 in Ok (y :: o)
                   else let! (t, r2) := parameter st r in
                        let! o := outputLoop f st r2 in Ok (t ++ o)
               end
      end
  end.

(** textFormat.tcc:268-361 *)
Definition output (st : formatter) : outcome (list Z * formatter) :=
  let! o := match pattern st with
            | [] => Ok (buff st)
            | s => outputLoop (length s) st s
            end in
  Ok (o, resetArgs st).

(** one message: fmt(pattern) << arguments, then the output *)
Definition message (st : formatter) (p : list Z) (l : list arg) : outcome (list Z * formatter) :=
  let! st1 := addArgs (setPattern st p) l in output st1.

Fixpoint messages (st : formatter) (ms : list (list Z * list arg)) : outcome (list (list Z)) :=
  match ms with
  | [] => Ok []
  | (p, l) :: r => let! (o, st1) := message st p l in
                   let! os := messages st1 r in Ok (o :: os)
  end.
