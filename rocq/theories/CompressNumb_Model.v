(** Model of src/lightspeed/base/streams/compressNumb.{h,cpp}: variable length
    coding of 64 bit numbers. *)
From Verif Require Import Common.
Local Open Scope N_scope.

(** wrap-around of Bin::natural64 *)
Definition u64 (x : N) : N := x mod 2 ^ 64.

(** compressNumb.cpp:8-18 calcCompressedLen *)
Definition calcCompressedLen (n : N) : nat :=
  if n <? 0x20 then 0 else
  if n <? 0x2020 then 1 else
  if n <? 0x202020 then 2 else
  if n <? 0x20202020 then 3 else
  if n <? 0x2020202020 then 4 else
  if n <? 0x202020202020 then 5 else
  if n <? 0x20202020202020 then 6 else
  if n <? 0x1F20202020202020 then 7 else 8.

(** compressNumb.cpp:20-30 compressOffsets *)
Definition compressOffsets : list N :=
  [0; 0x20; 0x2020; 0x202020; 0x20202020; 0x2020202020; 0x202020202020; 0x20202020202020; 0].

(** compressNumb.cpp:44-49, the loop [while (len > 0)] and the final store into
    buffer[0]; [tail] holds buffer[len+1 ..], already written *)
Fixpoint store_bytes (firstByte : N) (len : nat) (number : N) (tail : list N) : list N :=
  match len with
  | O => N.lor (N.land number 0xFF) firstByte :: tail
  | S l => store_bytes firstByte l (N.shiftr number 8) (N.land number 0xFF :: tail)
  end.

(** compressNumb.cpp:32-51 CompressNumb::compress; the returned count is the
    length of the list, the list is the part of the buffer that was written *)
Definition compress (number : N) : list N :=
  let len := calcCompressedLen number in
  let firstByte := if (len =? 8)%nat then 0xFF else N.shiftl (N.of_nat len) 5 in
  let number := u64 (number + 2 ^ 64 - nth len compressOffsets 0) in
  store_bytes firstByte len number [].

(** compressNumb.h:39-44 numberLength *)
Definition numberLength (fb : N) : N :=
  (N.shiftr fb 5 + 1) + N.shiftr (fb + 1) 8.

(** compressNumb.cpp:62-68, the loop of decompress with the final addition;
    [x] is the current byte and [buf] the rest of the buffer.  Reading past
    the end of the buffer is undefined. *)
Fixpoint load_bytes (len : nat) (res x : N) (buf : list N) : outcome N :=
  let res := u64 (u64 (N.shiftl res 8) + x) in
  match len with
  | O => Ok res
  | S l => match buf with
           | [] => Undef
           | b :: t => load_bytes l res b t
           end
  end.

(** compressNumb.cpp:53-71 CompressNumb::decompress *)
Definition decompress (buf : list N) : outcome N :=
  match buf with
  | [] => Undef
  | x :: t =>
      let len := numberLength x - 1 in
      let x := N.land x (N.shiftr 0x1F (N.land len 8)) in
      let! res := load_bytes (N.to_nat len) 0 x t in
      Ok (u64 (res + nth (N.to_nat len) compressOffsets 0))
  end.

(** integer64 <-> natural64 casts *)
Definition to_u64 (z : Z) : N := Z.to_N (z mod 2 ^ 64)%Z.
Definition to_s64 (n : N) : Z :=
  let n := u64 n in if n <? 2 ^ 63 then Z.of_N n else (Z.of_N n - 2 ^ 64)%Z.

(** signed arithmetic on integer64: leaving the range is undefined *)
Definition s64 (z : Z) : outcome Z :=
  if ((- 2 ^ 63 <=? z) && (z <? 2 ^ 63))%Z then Ok z else Undef.

(** compressNumb.h:46-52 compressSigned.  The shift of a non-negative signed
    value is taken modulo 2^64 (defined since C++14; older compilers do the same),
    the negation overflows for the least number. *)
Definition compressSigned (number : Z) : outcome (list N) :=
  if (0 <=? number)%Z then Ok (compress (to_u64 (number * 2)))
  else let! m := s64 (- number) in
       let! m := s64 (m - 1) in
       Ok (compress (N.lor (to_u64 (m * 2)) 1)).

(** compressNumb.h:54-58 decompressSigned *)
Definition decompressSigned (buf : list N) : outcome Z :=
  let! res := decompress buf in
  if N.land res 1 =? 1
  then let! m := s64 (- to_s64 (N.shiftr res 1)) in s64 (m - 1)
  else Ok (to_s64 (N.shiftr res 1)).
