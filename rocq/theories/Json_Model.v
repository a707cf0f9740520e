(** Model of the JSON parser, src/lightspeed/utils/json/jsonparser.tcc, and serializer,
    jsonserializer.tcc.  A text is a list of bytes; reading behind its end throws.  The
    tree of fields of an object is the sorted list of its members.  Floating point
    numbers are kept as their text: the conversions are not modelled.  The stack used by
    the recursion is not modelled.  [isspace] is the one of the C locale, and false for
    bytes from 128 on (which are negative characters). *)
From Verif Require Import Common Conv_Model Utf_Model Rational_Model IntText_Model Json_Spec.
Local Open Scope N_scope.

(** ** Parser *)

Definition isspace (c : N) : bool := ((9 <=? c) && (c <=? 13)) || (c =? 32).
(** the characters skipped by parse, jsonparser.tcc:35-41 *)
Definition skipped (c : N) : bool :=
  (c =? 32) || (c =? 9) || (c =? 13) || (c =? 10) || (c =? 8) || (c =? 7) || (c =? 0).

(** [c = getNext(); while (isspace(c)) c = getNext();] as in jsonparser.tcc:114-115, 128-129;
    also the loops 138-147 and 178-186 *)
Fixpoint nextNonSpace (s : list N) : outcome (N * list N) :=
  match s with
  | [] => Throw
  | c :: t => if isspace c then nextNonSpace t else Ok (c, t)
  end.
(** [c = peek(); while (isspace(c)) {skip(); c = peek();}] as in jsonparser.tcc:161-162; the
    answer is the text from the first other character on *)
Fixpoint peekNonSpace (s : list N) : outcome (list N) :=
  match s with
  | [] => Throw
  | c :: t => if isspace c then peekNonSpace t else Ok s
  end.
(** jsonparser.tcc:21-22 and 35-41: the first character that is not skipped *)
Fixpoint nextToken (s : list N) : outcome (N * list N) :=
  match s with
  | [] => Throw
  | c :: t => if skipped c then nextToken t else Ok (c, t)
  end.

(** parseCheck, jsonparser.tcc:255-262 *)
Fixpoint parseCheck (str s : list N) : outcome (list N) :=
  match str with
  | [] => Ok s
  | x :: str =>
      match s with
      | [] => Throw
      | c :: t => if c =? x then parseCheck str t else Throw
      end
  end.

(** jsonparser.tcc:72-79 *)
Definition shortEscape (x : N) : option N :=
  if x =? 34 then Some 34
  else if x =? 92 then Some 92
  else if x =? 47 then Some 47
  else if x =? 98 then Some 8
  else if x =? 102 then Some 12
  else if x =? 110 then Some 10
  else if x =? 114 then Some 13
  else if x =? 116 then Some 9
  else None.
(** jsonparser.tcc:85, with the value as in textParser.cpp:27-31 *)
Definition hexVal (z : N) : option N :=
  if (48 <=? z) && (z <=? 57) then Some (z - 48)
  else if (65 <=? z) && (z <=? 70) then Some (z - 65 + 10)
  else if (97 <=? z) && (z <=? 102) then Some (z - 97 + 10)
  else None.
(** jsonparser.tcc:80-91 and textParser.cpp:21-37: four digits in base 16 *)
Definition hex4 (a b c d : N) : option N :=
  match hexVal a, hexVal b, hexVal c, hexVal d with
  | Some a, Some b, Some c, Some d => Some (((a * 16 + b) * 16 + c) * 16 + d)
  | _, _, _, _ => None
  end.

(** parseRawString, jsonparser.tcc:60-105: the bytes of the string and the text behind the
    closing quote *)
Fixpoint rawString (s : list N) : outcome (list N * list N) :=
  match s with
  | [] => Throw
  | x :: t =>
      if x =? 34 then Ok ([], t)
      else if x =? 92 then
        match t with
        | [] => Throw
        | e :: t =>
            if e =? 117 then
              match t with
              | a :: b :: c :: d :: t =>
                  match hex4 a b c d with
                  | None => Throw
                  | Some wy =>
                      let! u := utf8_encode [wy] in
                      let! (l, r) := rawString t in Ok (u ++ l, r)
                  end
              | _ => Throw
              end
            else
              match shortEscape e with
              | None => Throw
              | Some y => let! (l, r) := rawString t in Ok (y :: l, r)
              end
        end
      else let! (l, r) := rawString t in Ok (x :: l, r)
  end.

(** end of a number, jsonparser.tcc:222 *)
Definition stops (c : N) : bool := (c =? 44) || (c =? 93) || (c =? 125) || (c =? 0) || isspace c.
Fixpoint collect (s : list N) : list N * list N :=
  match s with
  | [] => ([], [])
  | c :: t => if stops c then ([], s) else let (l, r) := collect t in (c :: l, r)
  end.
(** parseValue, jsonparser.tcc:206-252; [integer] and [linteger] have 64 bits, so that the
    bound is 22 and the second branch is dead.  For floating point numbers the exception
    thrown for a text that is none is not modelled. *)
Definition parseValue (first : N) (s : list N) : outcome (json * list N) :=
  match s with
  | [] => Throw
  | _ :: _ =>
      let! s := if isspace first then peekNonSpace s else Ok s in
      let buf0 := if isspace first then [] else [first] in
      let (l, r) := collect s in
      let isFloat := existsb (fun c => (c =? 46) || (c =? 69) || (c =? 101)) l in
      let buf := buf0 ++ l in
      if negb isFloat && (Nat.leb (length buf) 22) then
        let! (ok, x, rest) := parseS 10 (map Z.of_N buf) in
        if ok && match rest with [] => true | _ => false end then Ok (JInt x, r) else Throw
      else Ok (JFloat buf, r)
  end.

(** ** Names of members *)

(** a byte as a character *)
Definition schar (c : N) : Z := if 128 <=? c then (Z.of_N c - 256)%Z else Z.of_N c.
(** ArrayTBase::compareItems and CmpFunctor, arrayt.h:776-781 and 787-791; the loop of
    forEach; the first array is not the longer one *)
Fixpoint cmpLoop (a b : list N) : comparison :=
  match a, b with
  | x :: a, y :: b => if x =? y then cmpLoop a b else if (schar x <? schar y)%Z then Lt else Gt
  | _, _ => Eq
  end.
(** ArrayTBase::compare, arrayt.h:800-811 *)
Definition cmpShort (a b : list N) : comparison :=
  match a with
  | [] => match b with [] => Eq | _ => Lt end
  | _ => match cmpLoop a b with
         | Eq => if Nat.ltb (length a) (length b) then Lt else Eq
         | c => c
         end
  end.
Definition compareKeys (a b : list N) : comparison :=
  if Nat.ltb (length b) (length a) then CompOpp (cmpShort b a) else cmpShort a b.

(** Object::insertField, json.cpp:45-52: a member whose name is there already is dropped *)
Fixpoint insertField (k : list N) (v : json) (m : list (list N * json)) : list (list N * json) :=
  match m with
  | [] => [(k, v)]
  | (k', v') :: t =>
      match compareKeys k k' with
      | Lt => (k, v) :: m
      | Eq => m
      | Gt => (k', v') :: insertField k v t
      end
  end.

(** parse, jsonparser.tcc:18-45, parseObject 109-152, parseArray 155-192.  [members] starts
    with the character [c] read last. *)
Fixpoint parse (fuel : nat) (s : list N) : outcome (json * list N) :=
  match fuel with
  | O => NoFuel
  | S f =>
      let! (x, t) := nextToken s in
      if x =? 34 then let! (l, r) := rawString t in Ok (JStr l, r)
      else if x =? 123 then
        let! (c, r) := nextNonSpace t in
        if c =? 125 then Ok (JObj [], r) else members f c r []
      else if x =? 91 then
        let! t := peekNonSpace t in
        match t with
        | [] => Throw
        | c :: r => if c =? 93 then Ok (JArr [], r) else elems f t []
        end
      else if x =? 116 then let! r := parseCheck [114; 117; 101] t in Ok (JBool true, r)
      else if x =? 102 then let! r := parseCheck [97; 108; 115; 101] t in Ok (JBool false, r)
      else if x =? 110 then let! r := parseCheck [117; 108; 108] t in Ok (JNull, r)
      else parseValue x t
  end
with members (fuel : nat) (c : N) (s : list N) (m : list (list N * json)) : outcome (json * list N) :=
  match fuel with
  | O => NoFuel
  | S f =>
      let! (c, s) := if isspace c then nextNonSpace s else Ok (c, s) in
      if c =? 34 then
        let! (k, s) := rawString s in
        let! (d, s) := nextNonSpace s in
        if d =? 58 then
          let! (v, s) := parse f s in
          let m := insertField k v m in
          let! (c, s) := nextNonSpace s in
          if c =? 44 then
            match s with [] => Throw | c :: s => members f c s m end
          else if c =? 125 then Ok (JObj m, s)
          else Throw
        else Throw
      else Throw
  end
with elems (fuel : nat) (s : list N) (l : list json) : outcome (json * list N) :=
  match fuel with
  | O => NoFuel
  | S f =>
      let! (v, s) := parse f s in
      let l := l ++ [v] in
      let! (e, s) := nextNonSpace s in
      if e =? 44 then elems f s l
      else if e =? 93 then Ok (JArr l, s)
      else Throw
  end.

(** the whole parser; the bound is never reached (json_parse_ends) *)
Definition parseJson (s : list N) : outcome (json * list N) := parse (2 * length s + 1) s.

(** ** Serializer *)

(** hexChars, textFormat.cpp:22, for the values below 36 *)
Definition hexChar (x : N) : N := if x <? 10 then 48 + x else 65 + (x - 10).
(** formatUnsigned, textFormat.cpp:25-36 *)
Fixpoint formatUnsigned (fuel : nat) (num base : N) : outcome (list N) :=
  if num =? 0 then Ok []
  else match fuel with
       | O => NoFuel
       | S f => let! l := formatUnsigned f (num / base) base in Ok (l ++ [hexChar (num mod base)])
       end.
(** numberToStringUnsigned, textFormat.cpp:40-55, with a buffer of 100 characters *)
Definition numberU (num base : N) : outcome (list N) :=
  if num =? 0 then Ok [48] else formatUnsigned 64 num base.
(** numberToStringSigned, textFormat.cpp:58-79 *)
Definition numberS (num : Z) (base : N) : outcome (list N) :=
  if (num =? 0)%Z then Ok [48]
  else if (num <? 0)%Z then
    let! m := signed (- num) in let! l := formatUnsigned 64 (Z.to_N m) base in Ok (45 :: l)
  else formatUnsigned 64 (Z.to_N num) base.

(** [fmt("\\u%{04}1") << c] in base 16, jsonserializer.tcc:236-238: filled with zeros from
    the left, textFormat.tcc:214-263 and 323-355 *)
Definition unicode (c : N) : outcome (list N) :=
  let! h := numberU c 16 in Ok (92 :: 117 :: repeat 48 (4 - length h) ++ h).

(** writeChar, jsonserializer.tcc:225-243; bytes from 128 on are negative characters *)
Definition writeChar (c : N) : outcome (list N) :=
  if c =? 13 then Ok [92; 114]
  else if c =? 12 then Ok [92; 102]
  else if c =? 10 then Ok [92; 110]
  else if c =? 9 then Ok [92; 116]
  else if c =? 8 then Ok [92; 98]
  else if c =? 92 then Ok [92; 92]
  else if c =? 34 then Ok [92; 34]
  else if c <? 32 then unicode c
  else Ok [c].

(** serializeString(ConstStrA), jsonserializer.tcc:72-80, without the quotes *)
Fixpoint plainString (s : list N) : outcome (list N) :=
  match s with
  | [] => Ok []
  | c :: t => let! a := writeChar c in let! b := plainString t in Ok (a ++ b)
  end.
(** serializeStringEscUTF, jsonserializer.tcc:99-123, without the quotes; [st] is the state
    of the filter while a character is not complete.  After one [output] the filter has no
    further items. *)
Fixpoint escString (st : option wdec) (s : list N) : outcome (list N) :=
  match s with
  | [] => match st with None => Ok [] | Some _ => Throw end
  | c :: t =>
      match st with
      | None =>
          if c <? 128 then let! a := writeChar c in let! b := escString None t in Ok (a ++ b)
          else
            let! w := wdec_write false wdec_init c in
            if wd_has w then
              let! (cu, w) := wdec_next w in
              let! a := unicode cu in let! b := escString None t in Ok (a ++ b)
            else escString (Some w) t
      | Some w =>
          let! w := wdec_write false w c in
          if wd_has w then
            let! (cu, w) := wdec_next w in
            let! a := unicode cu in let! b := escString None t in Ok (a ++ b)
          else escString (Some w) t
      end
  end.
(** serializeString(const INode ptr), jsonserializer.tcc:158-167, for UTF-8 strings *)
Definition stringText (esc : bool) (s : list N) : outcome (list N) :=
  let! l := if esc then escString None s else plainString s in Ok (34 :: l ++ [34]).

(** serialize, jsonserializer.tcc:192-221; arrays 30-49, objects 126-155, booleans 52-58, null
    66-68, integers 178-182.  Floating point numbers, deleted and custom nodes are not modelled:
    floating point numbers are given the outcome [Undef] and excluded in the theorems.  A
    value is a tree, so that the cycle detector never fires. *)
Fixpoint serialize (esc : bool) (v : json) : outcome (list N) :=
  match v with
  | JNull => Ok [110; 117; 108; 108]
  | JBool true => Ok [116; 114; 117; 101]
  | JBool false => Ok [102; 97; 108; 115; 101]
  | JInt z => numberS z 10
  | JFloat _ => Undef
  | JStr s => stringText esc s
  | JArr l =>
      let! t := (fix rest (first : bool) (l : list json) : outcome (list N) :=
         match l with
         | [] => Ok []
         | v :: l =>
             let! a := serialize esc v in
             let! b := rest false l in
             Ok ((if first then [] else [44]) ++ a ++ b)
         end) true l in
      Ok (91 :: t ++ [93])
  | JObj m =>
      let! t := (fix rest (first : bool) (m : list (list N * json)) : outcome (list N) :=
         match m with
         | [] => Ok []
         | (k, v) :: m =>
             let! tk := stringText esc k in
             let! a := serialize esc v in
             let! b := rest false m in
             Ok ((if first then [] else [44]) ++ tk ++ 58 :: a ++ b)
         end) true m in
      Ok (123 :: t ++ [125])
  end.
