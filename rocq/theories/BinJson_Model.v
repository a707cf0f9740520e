(** Model of the binary JSON form, src/lightspeed/utils/json/binjson.h and binjson.cpp, without
    floating point numbers and without convertToText.  Bytes are numbers below 256. *)
From Verif Require Import Common Conv_Model Utf_Model Json_Spec Json_Model.
Local Open Scope N_scope.

(** ** Writing *)

(** JsonToBinary::strMap and nxtCode, binjson.h:124-129, filled by addEnum, binjson.cpp:38-40:
    the table of strings in the order they were added; a string added again keeps its first
    number *)
Fixpoint position (tab : list (list N)) (s : list N) : option nat :=
  match tab with
  | [] => None
  | t :: r => if list_eq_dec N.eq_dec t s then Some O
              else match position r s with Some i => Some (S i) | None => None end
  end.

(** writeNumber, binjson.cpp:131-156 *)
Definition bytesOf (k : nat) (v : N) : list N := map (fun i => N.shiftr v (8 * N.of_nat i) mod 256) (seq 0 k).
Definition writeNumber (op v : N) : list N :=
  if v <=? 255 then op :: bytesOf 1 v
  else if v <=? 0xFFFF then op + 1 :: bytesOf 2 v
  else if v <=? 0xFFFFFFFF then op + 2 :: bytesOf 4 v
  else op + 3 :: bytesOf 8 v.

(** writeString, binjson.cpp:114-129 *)
Definition writeString (tab : list (list N)) (s : list N) : outcome (list N) :=
  match s with
  | [] => Ok [21]
  | _ =>
      match position tab s with
      | None => Ok (writeNumber 8 (N.of_nat (length s)) ++ s)
      | Some i => utf8_encode [40 + N.of_nat i]
      end
  end.

(** serializeInteger, binjson.cpp:83-94; the conversion of -v to lnatural is modulo 2^64 *)
Definition serializeInteger (v : Z) : outcome (list N) :=
  if (v <? 0)%Z then
    if (v =? - 2 ^ 63)%Z then Undef else Ok (writeNumber 16 (Z.to_N (- v)))
  else if (0 <? v)%Z then Ok (writeNumber 12 (Z.to_N (- v + 2 ^ 64)))
  else Ok [20].

(** serializeValue, binjson.cpp:42-112; a floating point number is not modelled *)
Fixpoint serializeValue (tab : list (list N)) (v : json) : outcome (list N) :=
  match v with
  | JNull => Ok [0]
  | JBool b => Ok [if b then 2 else 1]
  | JInt z => serializeInteger z
  | JFloat _ => Undef
  | JStr s => writeString tab s
  | JArr l =>
      let! b := (fix items l := match l with
                                | [] => Ok []
                                | x :: r => let! a := serializeValue tab x in let! b := items r in Ok (a ++ b)
                                end) l in
      Ok (3 :: b ++ [5])
  | JObj m =>
      let! b := (fix members m := match m with
                                  | [] => Ok []
                                  | (k, x) :: r =>
                                      let! n := writeString tab k in
                                      let! a := serializeValue tab x in
                                      let! b := members r in Ok (n ++ a ++ b)
                                  end) m in
      Ok (4 :: b ++ [5])
  end.

(** ** Reading *)

(** Utf8ToWideReader::getNext on the stream (ConverterBase::getNextFromIter, iterConv.h:439-448): bytes
    are taken until a character is complete *)
Fixpoint readCode (s : wdec) (bs : list N) : outcome (N * list N) :=
  match bs with
  | [] => Throw
  | b :: r =>
      let! s1 := wdec_write false s b in
      if wd_has s1 then let! (c, _) := wdec_next s1 in Ok (c, r) else readCode s1 r
  end.

(** SeqFileInput::getNext, base/streams/fileio.h:98-103 *)
Definition getByte (bs : list N) : outcome (N * list N) :=
  match bs with b :: r => Ok (b, r) | [] => Throw end.

(** readNumber, binjson.cpp:428-452 *)
Fixpoint readBytes (k : nat) (bs : list N) : outcome (N * list N) :=
  match k with
  | O => Ok (0, bs)
  | S j => let! (b, r) := getByte bs in
           let! (v, r1) := readBytes j r in Ok (b + N.shiftl v 8, r1)
  end.
Definition readNumber (opcode : N) (bs : list N) : outcome (N * list N) :=
  if opcode =? 0 then readBytes 1 bs
  else if opcode =? 1 then readBytes 2 bs
  else if opcode =? 2 then readBytes 4 bs
  else if opcode =? 3 then readBytes 8 bs
  else Ok (0, bs).

(** SeqFileInput::blockRead with all, base/streams/fileio.h:123-132 *)
Definition blockRead (n : N) (bs : list N) : outcome (list N * list N) :=
  if n <=? N.of_nat (length bs) then Ok (firstn (N.to_nat n) bs, skipn (N.to_nat n) bs) else Throw.

(** the number as integer: IntField of lnatural, json.cpp:478-482 *)
Definition toInteger (n : N) : Z :=
  let v := (Z.of_N n mod 2 ^ 64)%Z in if (v <? 2 ^ 63)%Z then v else (v - 2 ^ 64)%Z.

(** parseNumber, binjson.cpp:454-462; the negation of the smallest integer is undefined *)
Definition parseNumber (opcode : N) (neg : bool) (bs : list N) : outcome (json * list N) :=
  let! (n, r) := readNumber opcode bs in
  if neg then
    if (toInteger n =? - 2 ^ 63)%Z then Undef else Ok (JInt (- toInteger n), r)
  else Ok (JInt (toInteger n), r).

(** parseString, binjson.cpp:464-471: the caller hands over the whole code *)
Definition parseString (opcode : N) (bs : list N) : outcome (json * list N) :=
  let! (n, r) := readNumber opcode bs in
  let! (s, r1) := blockRead n r in Ok (JStr s, r1).

(** decimal digits of ToString<natural>, for the names given to unknown strings; their text
    does not matter here *)
Definition unknownKey (c : N) : list N := [75; 101; 121; c].
Definition unknownString (c : N) : list N := [85; 110; 100; c].

(** the stack: the last item is the first of the list; a null pointer is [None] *)
Definition vstack := list (option json).

(** Object::add, json.cpp:68-73: adding the null pointer erases *)
Fixpoint eraseField (k : list N) (m : list (list N * json)) : list (list N * json) :=
  match m with
  | [] => []
  | (k', v) :: t => match compareKeys k k' with Eq => t | _ => (k', v) :: eraseField k t end
  end.
Definition addField (k : list N) (v : option json) (m : list (list N * json)) : list (list N * json) :=
  match v with Some v => insertField k v m | None => eraseField k m end.

(** parse, binjson.cpp:224-286, parseArray 379-388 and parseObject 390-414; the result is the
    value, the stack and the rest of the input.  The bound is on the depth and number of items
    together. *)
Fixpoint parse (fuel : nat) (tab : list (list N)) (st : vstack) (bs : list N) {struct fuel}
  : outcome (option json * vstack * list N) :=
  match fuel with
  | O => NoFuel
  | S f =>
      let ok v r := Ok (Some v, st, r) in
      let! (code, r) := readCode wdec_init bs in
      if code =? 3 then
        let! (l, st1, r1) := parseArray f tab st r in Ok (Some (JArr l), st1, r1)
      else if code =? 21 then ok (JStr []) r
      else if code =? 5 then Ok (None, st, r)
      else if code =? 1 then ok (JBool false) r
      else if (code =? 22) || (code =? 23) then Undef (* floating point, not modelled *)
      else if (16 <=? code) && (code <=? 19) then let! (v, r1) := parseNumber (code - 16) true r in ok v r1
      else if code =? 0 then ok JNull r
      else if code =? 4 then
        let! (m, st1, r1) := parseObject f tab st [] r in Ok (Some (JObj m), st1, r1)
      else if (28 <=? code) && (code <=? 30) then
        let! (n, r1) := readNumber (code - 28) r in
        match nth_error st (N.to_nat n) with Some v => Ok (v, st, r1) | None => Undef end
      else if code =? 7 then
        match st with v :: st1 => Ok (v, st1, r) | [] => Undef end
      else if (12 <=? code) && (code <=? 15) then let! (v, r1) := parseNumber (code - 12) false r in ok v r1
      else if code =? 6 then
        let! (v, st1, r1) := parse f tab st r in parse f tab (v :: st1) r1
      else if code =? 31 then
        let! (n, r1) := readNumber 0 r in parse f tab (skipn (N.to_nat n) st) r1
      else if (8 <=? code) && (code <=? 11) then let! (v, r1) := parseString code r in ok v r1
      else if code =? 2 then ok (JBool true) r
      else if code =? 20 then ok (JInt 0) r
      else if code <? 40 then Throw
      else match nth_error tab (N.to_nat (code - 40)) with
           | Some s => ok (JStr s) r
           | None => ok (JStr (unknownString (code - 40))) r
           end
  end
with parseArray (fuel : nat) (tab : list (list N)) (st : vstack) (bs : list N) {struct fuel}
  : outcome (list json * vstack * list N) :=
  match fuel with
  | O => NoFuel
  | S f =>
      let! (b, _) := getByte bs in
      if b =? 5 then Ok ([], st, bs)
      else
        let! (v, st1, r1) := parse f tab st bs in
        let! (l, st2, r2) := parseArray f tab st1 r1 in
        Ok (match v with Some v => v :: l | None => l end, st2, r2)
  end
with parseObject (fuel : nat) (tab : list (list N)) (st : vstack) (m : list (list N * json)) (bs : list N) {struct fuel}
  : outcome (list (list N * json) * vstack * list N) :=
  match fuel with
  | O => NoFuel
  | S f =>
      let! (code, r) := readCode wdec_init bs in
      if code =? 5 then Ok (m, st, r)
      else if code <? 40 then
        (* an unsigned subtraction: a code below 8 gives a huge number, which is no width *)
        let! (n, r1) := readNumber (if 8 <=? code then code - 8 else code + (2 ^ 64 - 8)) r in
        let! (k, r2) := blockRead n r1 in
        let! (v, st1, r3) := parse f tab st r2 in parseObject f tab st1 (addField k v m) r3
      else
        let k := match nth_error tab (N.to_nat (code - 40)) with Some s => s | None => unknownKey (code - 40) end in
        let! (v, st1, r3) := parse f tab st r in parseObject f tab st1 (addField k v m) r3
  end.
