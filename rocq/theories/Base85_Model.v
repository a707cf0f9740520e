(** Model of ByteToBase85Convert / Base85ToByteConvert,
    /repo/src/lightspeed/utils/base85.h:21-80 and base85.cpp:16-164.
    Conventions as in Base64_Model.v; the 32-bit accumulator wraps modulo 2^32. *)
From Verif Require Import Common Conv_Model Base64_Model.
Local Open Scope N_scope.

(** [encoder], base85.cpp:16-26 *)
Definition alphabet85 : list N :=
  [48;49;50;51;52;53;54;55;56;57; 97;98;99;100;101;102;103;104;105;106;
   107;108;109;110;111;112;113;114;115;116; 117;118;119;120;121;122;65;66;67;68;
   69;70;71;72;73;74;75;76;77;78; 79;80;81;82;83;84;85;86;87;88;
   89;90;46;45;58;43;61;94;33;47; 42;63;38;60;62;40;41;91;93;123; 125;64;37;36;35].

(** [decoder], base85.cpp:30-43 *)
Definition decoder85 : list N :=
  [0; 68; 0; 84; 83; 82; 72; 0;   75; 76; 70; 65; 0; 63; 62; 69;
   0; 1; 2; 3; 4; 5; 6; 7;        8; 9; 64; 0; 73; 66; 74; 71;
   81; 36; 37; 38; 39; 40; 41; 42;   43; 44; 45; 46; 47; 48; 49; 50;
   51; 52; 53; 54; 55; 56; 57; 58;   59; 60; 61; 77; 0; 78; 67; 0;
   0; 10; 11; 12; 13; 14; 15; 16;   17; 18; 19; 20; 21; 22; 23; 24;
   25; 26; 27; 28; 29; 30; 31; 32;   33; 34; 35; 79; 0; 80; 0; 0].

Definition u32 (x : N) : N := x mod 2 ^ 32.

(** [multiplies], base85.cpp:45 *)
Definition multiplies85 : list N := [1; 85; 7225; 614125; 52200625].

(** ByteToBase85Convert, base85.h:48-56 *)
Record enc85 := mkE85 {
  e8_out : list (option N); e8_acc : N; e8_wr : nat; e8_rd : nat; e8_max : nat;
  e8_has : bool; e8_need : bool; e8_eolb : bool }.
(** base85.cpp:47-50 *)
Definition enc85_init : enc85 := mkE85 (repeat None 6) 0 0%nat 0%nat 0%nat false true false.
(** reset, base85.cpp:52-58 *)
Definition enc85_reset (s : enc85) : enc85 :=
  mkE85 (e8_out s) 0 0%nat 0%nat (e8_max s) false true (e8_eolb s).
(** getNext, base85.cpp:60-67 *)
Definition enc85_next (s : enc85) : outcome (N * enc85) :=
  let! out := cell (e8_out s) (e8_rd s) in
  let s1 := mkE85 (e8_out s) (e8_acc s) (e8_wr s) (S (e8_rd s)) (e8_max s) (e8_has s) (e8_need s) (e8_eolb s) in
  Ok (out, if Nat.eqb (e8_rd s1) (e8_max s1) then enc85_reset s1 else s1).

(** the digit loop, base85.cpp:86-89: position pos gets digit 4-pos *)
Fixpoint put_digits (n : nat) (pos : nat) (acc : N) (o : list (option N)) : outcome (list (option N)) :=
  match n with
  | O => Ok o
  | S n =>
      let! m := tab multiplies85 (N.of_nat n) in
      let! ch := tab alphabet85 ((acc / m) mod 85) in
      let! o := setc o pos ch in
      put_digits n (S pos) acc o
  end.
(** write, base85.cpp:71-95 *)
Definition enc85_write (s : enc85) (item : N) : outcome enc85 :=
  let s := if e8_eolb s
           then enc85_reset (mkE85 (e8_out s) (e8_acc s) (e8_wr s) (e8_rd s) (e8_max s) (e8_has s) (e8_need s) false)
           else s in
  let acc := N.lor (u32 (N.shiftl (e8_acc s) 8)) item in
  let wr := S (e8_wr s) in
  if Nat.ltb 3 wr then
    let! o := put_digits 5 0%nat acc (e8_out s) in
    Ok (mkE85 o acc wr (e8_rd s) 5%nat true false (e8_eolb s))
  else Ok (mkE85 (e8_out s) acc wr (e8_rd s) (e8_max s) (e8_has s) (e8_need s) (e8_eolb s)).

Fixpoint enc85_zeros (n : nat) (s : enc85) : outcome enc85 :=
  match n with O => Ok s | S n => let! s := enc85_write s 0 in enc85_zeros n s end.
(** flush, base85.cpp:97-109 *)
Definition enc85_flush (s : enc85) : outcome enc85 :=
  if e8_eolb s then Ok s else
  let! s :=
    (if Nat.eqb (e8_wr s) 0 then Ok s
     else
       let remain := (4 - e8_wr s)%nat in
       let! s := enc85_zeros remain s in
       Ok (mkE85 (e8_out s) (e8_acc s) (e8_wr s) (e8_rd s) (e8_max s - remain)%nat (e8_has s) (e8_need s) (e8_eolb s))) in
  Ok (mkE85 (e8_out s) (e8_acc s) (e8_wr s) (e8_rd s) (e8_max s) true false true).

Definition enc85_conv : conv enc85 N N :=
  mkConv e8_has e8_eolb enc85_write enc85_next enc85_flush.

(** Base85ToByteConvert, base85.h:72-76; [maxreadpos] is not initialised *)
Record dec85 := mkD85 {
  d8_out : list (option N); d8_acc : N; d8_rd : nat; d8_max : option nat; d8_wr : nat;
  d8_has : bool; d8_need : bool; d8_eolb : bool }.
(** base85.cpp:111-115 *)
Definition dec85_init : dec85 := mkD85 (repeat None 4) 0 0%nat None 0%nat false true false.
(** reset, base85.cpp:117-123 *)
Definition dec85_reset (s : dec85) : dec85 :=
  mkD85 (d8_out s) 0 0%nat (d8_max s) 0%nat false true (d8_eolb s).
(** getNext, base85.cpp:125-132 *)
Definition dec85_next (s : dec85) : outcome (N * dec85) :=
  let! out := cell (d8_out s) (d8_rd s) in
  match d8_max s with
  | None => Undef
  | Some mx =>
      let s1 := mkD85 (d8_out s) (d8_acc s) (S (d8_rd s)) (d8_max s) (d8_wr s) (d8_has s) (d8_need s) (d8_eolb s) in
      Ok (out, if Nat.eqb (d8_rd s1) mx then dec85_reset s1 else s1)
  end.
(** write, base85.cpp:137-155; a character is a number 0..255, negative as a
    [signed char] when >= 128 *)
Definition dec85_write (s : dec85) (item : N) : outcome dec85 :=
  if (item <? 33) || (128 <=? item) then Ok s else
  let s := if d8_eolb s
           then dec85_reset (mkD85 (d8_out s) (d8_acc s) (d8_rd s) (d8_max s) (d8_wr s) (d8_has s) (d8_need s) false)
           else s in
  let! d := tab decoder85 (item - 32) in
  let acc := u32 (d8_acc s * 85 + d) in
  let wr := S (d8_wr s) in
  if Nat.eqb wr 5 then
    Ok (mkD85 (map (fun k => Some (N.shiftr acc (8 * k) mod 256)) [3; 2; 1; 0])
              acc (d8_rd s) (Some 4%nat) wr true false (d8_eolb s))
  else Ok (mkD85 (d8_out s) acc (d8_rd s) (d8_max s) wr (d8_has s) (d8_need s) (d8_eolb s)).
Fixpoint dec85_hashes (n : nat) (s : dec85) : outcome dec85 :=
  match n with
  | O => Ok s
  | S n => let! ch := tab alphabet85 84 in let! s := dec85_write s ch in dec85_hashes n s
  end.
(** flush, base85.cpp:156-164 *)
Definition dec85_flush (s : dec85) : outcome dec85 :=
  let! s :=
    (if Nat.eqb (d8_wr s) 0 then Ok s
     else
       let remain := (5 - d8_wr s)%nat in
       let! s := dec85_hashes remain s in
       match d8_max s with
       | None => Undef
       | Some mx => Ok (mkD85 (d8_out s) (d8_acc s) (d8_rd s) (Some (mx - remain)%nat) (d8_wr s) (d8_has s) (d8_need s) (d8_eolb s))
       end) in
  Ok (mkD85 (d8_out s) (d8_acc s) (d8_rd s) (d8_max s) (d8_wr s) (d8_has s) (d8_need s) true).
Definition dec85_conv : conv dec85 N N :=
  mkConv d8_has d8_eolb dec85_write dec85_next dec85_flush.

Definition base85_encode (xs : list N) : outcome (list N) := push_all enc85_conv enc85_init xs.
Definition base85_decode (xs : list N) : outcome (list N) := push_all dec85_conv dec85_init xs.
