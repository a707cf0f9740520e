(** Model of the binary serialiser, src/lightspeed/base/serialize/binFormat.h
    (BinaryWriter, BinaryReader), of the array protocol of serializer.h:286-352 and of
    the UTF-8 filters it uses for wchar_t, src/lightspeed/base/streams/utf.{h,cpp}.

    A serialisation script is a fixed sequence of calls; it is represented by a
    [schema], the C++ types involved.  [write] is the script run on a BinaryWriter,
    [read] the same script run on a BinaryReader.  The output iterator is the list of
    bytes written, the input iterator the list of bytes still to read; getNext at its
    end throws. *)
From Verif Require Import Common Base64_Model Utf_Model CompressNumb_Model.
Local Open Scope N_scope.

Inductive schema :=
| TBool                                   (* bool *)
| TChar                                   (* char, signed char, unsigned char *)
| TSigned (bits : N)                      (* short, int, long, long long *)
| TUnsigned (bits : N)                    (* their unsigned versions *)
| TRaw (n : nat)                          (* float and double: n raw bytes *)
| TWide                                   (* wchar_t *)
| TArray (t : schema)                     (* Archive::Array *)
| TSection (name : list N) (t : schema)   (* arch(x,"name") *)
| TDefault (name : list N) (t : schema)   (* arch(x,"name",default): skipped if default *)
| TUnit
| TPair (a b : schema)                    (* one after the other *)
| TDyn (name : list N) (t : schema) (other : schema)
    (* dynamic section: opened by name, [other] is tried when another name is found *)
| TNoDyn.                                 (* no further name to try *)

Inductive value :=
| VBool (b : bool)
| VNat (n : N)
| VInt (z : Z)
| VRaw (bs : list N)
| VArray (l : list value)
| VSection (v : value)
| VDefault                                (* the value equals the default *)
| VGiven (v : value)
| VUnit
| VPair (a b : value)
| VThis (v : value)
| VOther (v : value).

(** binFormat.h:16-22 *)
Definition trueVal := 1. Definition falseVal := 0.
Definition beginSection := 0x55. Definition endSection := 0xE5.
Definition beginArray := 0xAA. Definition endArray := 0xEA.

(** utf.cpp:80-116 WideToUtf8Filter::input with data[8], then reading the items from
    rdpos up (utf.h:80-82), as done in binFormat.h:77-81 *)
Definition wide_filter (c : N) : outcome (list N) :=
  let (fbyte, parts) := utf_class c in
  let! (o, rd) := put_parts parts c (repeat None 8) 8 in
  match rd with
  | O => Undef
  | S rd => let! o := setc o rd fbyte in
            let fix out (k : nat) (rd : nat) : outcome (list N) :=
              match k with
              | O => Ok []
              | S k => let! b := cell o rd in let! t := out k (S rd) in Ok (b :: t)
              end in
            out (8 - rd)%nat rd
  end.

(** binFormat.h:90-101 openDynSection of the writer, with a name *)
Definition write_dyn_header (name : list N) : list N := beginSection :: name ++ [0].

(** the script on a BinaryWriter: binFormat.h:35-148; [None] marks values that do not
    belong to the schema (a script of these types cannot be handed such a value) *)
Fixpoint write (t : schema) (v : value) : outcome (list N) :=
  match t, v with
  | TBool, VBool b => Ok [if b then trueVal else falseVal]
  | TChar, VNat n => Ok [n]
  | TSigned _, VInt z => compressSigned z
  | TUnsigned _, VNat n => Ok (compress n)
  | TRaw _, VRaw bs => Ok bs
  | TWide, VNat c => wide_filter c
  | TArray t', VArray l =>
      let! items := (fix go (l : list value) : outcome (list N) :=
        match l with
        | [] => Ok []
        | v :: l => let! a := write t' v in let! b := go l in Ok (a ++ b)
        end) l in
      Ok (beginArray :: compress (N.of_nat (length l)) ++ items ++ [endArray])
  | TSection _ t', VSection v' => write t' v'
  | TDefault _ t', VDefault => Ok [0]
  | TDefault _ t', VGiven v' => let! a := write t' v' in Ok (1 :: a)
  | TUnit, VUnit => Ok []
  | TPair a b, VPair x y => let! p := write a x in let! q := write b y in Ok (p ++ q)
  | TDyn name t' _, VThis v' =>
      let! a := write t' v' in Ok (write_dyn_header name ++ a ++ [endSection])
  | TDyn _ _ o, VOther v' => write o v'
  | _, _ => Throw
  end.

(** reader: bytes to read and the member [dynSection] *)
Record reader := mkR { r_in : list N; r_dyn : list N }.

(** binFormat.h:312-314 readByte *)
Definition readByte (r : reader) : outcome (N * reader) :=
  match r_in r with [] => Throw | b :: t => Ok (b, mkR t (r_dyn r)) end.

(** binFormat.h:317-321 readBytes *)
Fixpoint readBytes (n : nat) (r : reader) : outcome (list N * reader) :=
  match n with
  | O => Ok ([], r)
  | S k => let! (b, r) := readByte r in let! (bs, r) := readBytes k r in Ok (b :: bs, r)
  end.

(** binFormat.h:322-335 readSigned / readUnsigned: fill the buffer, then decode *)
Definition readNumber (r : reader) : outcome (list N * reader) :=
  let! (b, r) := readByte r in
  let! (bs, r) := readBytes (N.to_nat (numberLength b - 1)) r in
  Ok (b :: bs, r).
Definition readUnsigned (r : reader) : outcome (N * reader) :=
  let! (buf, r) := readNumber r in let! n := decompress buf in Ok (n, r).
Definition readSigned (r : reader) : outcome (Z * reader) :=
  let! (buf, r) := readNumber r in let! z := decompressSigned buf in Ok (z, r).

(** casts to the type read *)
Definition cast_u (bits n : N) : N := n mod 2 ^ bits.
Definition cast_s (bits : N) (z : Z) : Z :=
  let m := (2 ^ Z.of_N bits)%Z in
  let h := (2 ^ (Z.of_N bits - 1))%Z in ((z + h) mod m - h)%Z.

(** utf.cpp:31-69 Utf8ToWideFilter::input; accum is 64 bit wide, state naturalNull is
    [None].  Invalid characters are not skipped (utf.h:63). *)
Definition flt_input (accum : N) (state : option N) (a : N) : outcome (N * option N) :=
  match state with
  | Some 0 => Throw
  | None =>
      if a <? 0x80 then Ok (a, Some 0)
      else if (0x80 <=? a) && (a <? 0xc0) then Throw
      else if (0xC0 <=? a) && (a <? 0xE0) then Ok (N.land a 0x1F, Some 1)
      else if (0xE0 <=? a) && (a <? 0xF0) then Ok (N.land a 0x0F, Some 2)
      else if (0xF0 <=? a) && (a <? 0xF8) then Ok (N.land a 0x07, Some 3)
      else if (0xF8 <=? a) && (a <? 0xFC) then Ok (N.land a 0x03, Some 4)
      else if (0xFC <=? a) && (a <? 0xFE) then Ok (N.land a 0x01, Some 5)
      else if (0xFE <=? a) && (a <? 0xFF) then Ok (0, Some 6)
      else Ok (accum, None)
  | Some st =>
      if (0x80 <=? a) && (a <? 0xc0)
      then Ok (N.lor (u64 (N.shiftl accum 6)) (N.land a 0x3F), Some (st - 1))
      else Throw
  end.
(** binFormat.h:223-229: feed the filter until it has an item.  The recursion is on the
    bytes left, each iteration consumes one. *)
Fixpoint read_wide (accum : N) (state : option N) (l : list N) : outcome (N * list N) :=
  match l with
  | [] => Throw
  | a :: t =>
      let! (acc, st) := flt_input accum state a in
      match st with
      | Some 0 => Ok (acc mod 2 ^ 32, t)
      | _ => read_wide acc st t
      end
  end.

(** reading a name up to the terminating zero, binFormat.h:247-253 *)
Fixpoint read_name (l : list N) : outcome (list N * list N) :=
  match l with
  | [] => Throw
  | 0 :: t => Ok ([], t)
  | b :: t => let! (n, t) := read_name t in Ok (b :: n, t)
  end.

Definition name_eqb (a b : list N) : bool := if list_eq_dec N.eq_dec a b then true else false.

(** binFormat.h:238-276 openDynSection of the reader with a name; [false] is the NULL
    result (another section was found, its name stays in dynSection) *)
Definition openDynSection (name : list N) (r : reader) : outcome (bool * reader) :=
  let! r := match r_dyn r with
            | [] => let! (b, r) := readByte r in
                    if b =? beginSection
                    then let! (n, rest) := read_name (r_in r) in Ok (mkR rest n)
                    else Throw
            | _ => Ok r
            end in
  if name_eqb (r_dyn r) name then Ok (true, mkR (r_in r) []) else Ok (false, r).

(** the script on a BinaryReader, binFormat.h:178-306.  The loop over an array runs as
    often as the count read tells (serializer.h:328-330). *)
Fixpoint read (t : schema) (r : reader) : outcome (value * reader) :=
  match t with
  | TBool => let! (b, r) := readByte r in
             if b =? falseVal then Ok (VBool false, r)
             else if b =? trueVal then Ok (VBool true, r) else Throw
  | TChar => let! (b, r) := readByte r in Ok (VNat b, r)
  | TSigned w => let! (z, r) := readSigned r in Ok (VInt (cast_s w z), r)
  | TUnsigned w => let! (n, r) := readUnsigned r in Ok (VNat (cast_u w n), r)
  | TRaw n => let! (bs, r) := readBytes n r in Ok (VRaw bs, r)
  | TWide => let! (c, rest) := read_wide 0 None (r_in r) in Ok (VNat c, mkR rest (r_dyn r))
  | TArray t' =>
      let! (b, r) := readByte r in
      if b =? beginArray then
        let! (count, r) := readUnsigned r in
        let! (l, r) := (fix go (k : nat) (r : reader) : outcome (list value * reader) :=
           match k with
           | O => Ok ([], r)
           | S k => let! (v, r) := read t' r in let! (l, r) := go k r in Ok (v :: l, r)
           end) (N.to_nat count) r in
        let! (b, r) := readByte r in
        if b =? endArray then Ok (VArray l, r) else Throw
      else Throw
  | TSection _ t' => let! (v, r) := read t' r in Ok (VSection v, r)
  | TDefault _ t' =>
      let! (b, r) := readByte r in
      if b =? falseVal then Ok (VDefault, r)
      else if b =? trueVal then let! (v, r) := read t' r in Ok (VGiven v, r)
      else Throw
  | TUnit => Ok (VUnit, r)
  | TPair a b => let! (x, r) := read a r in let! (y, r) := read b r in Ok (VPair x y, r)
  | TDyn name t' other =>
      let! (found, r) := openDynSection name r in
      if found then
        let! (v, r) := read t' r in
        let! (b, r) := readByte r in
        if b =? endSection then Ok (VThis v, r) else Throw
      else let! (v, r) := read other r in Ok (VOther v, r)
  | TNoDyn => Throw
  end.

(** lightSpeedTypes.h:33-40: storing a string calls arr.next() twice for every character
    written; [remain] counts as in serializer.h:328-330 *)
Fixpoint store_string_items (fuel remain : nat) (s : list N) : outcome (list N) :=
  match remain with
  | O => Ok []
  | S r =>                       (* while (arr.next()) *)
      match fuel, s with
      | S fuel, c :: s => (* arch(x); arr.next() *)
          let! t := store_string_items fuel (r - 1) s in Ok (c :: t)
      | O, _ => NoFuel
      | _, [] => Throw
      end
  end.
Definition store_string (s : list N) : outcome (list N) :=
  let! items := store_string_items (length s) (length s) s in
  Ok (beginArray :: compress (N.of_nat (length s)) ++ items ++ [endArray]).
(** lightSpeedTypes.h:22-33: loading reads as many characters as the count says *)
Definition load_string (r : reader) : outcome (list N * reader) :=
  let! (b, r) := readByte r in
  if b =? beginArray then
    let! (count, r) := readUnsigned r in
    let! (l, r) := readBytes (N.to_nat count) r in
    let! (b, r) := readByte r in
    if b =? endArray then Ok (l, r) else Throw
  else Throw.
