(** Model of ByteToBase32Convert / Base32ToByteConvert,
    /repo/src/lightspeed/utils/base32.h:24-108 and base32.cpp:17-218.
    Conventions as in Base64_Model.v. *)
From Verif Require Import Common Conv_Model Base64_Model.
Local Open Scope N_scope.

(** base32.cpp:17 *)
Definition alphabet32 : list N :=
  [65;66;67;68;69;70;71;72;73;74;75;76;77;78;79;80;81;82;83;84;85;86;87;88;89;90;50;51;52;53;54;55].

(** ByteToBase32Convert, base32.h:67-78 *)
Record enc32 := mkE32 {
  f_out : list (option N); f_wr : nat; f_rd : nat; f_has : bool; f_need : bool; f_eolb : bool }.

(** base32.cpp:23-32 *)
Definition enc32_init : enc32 := mkE32 (repeat None 8) 0%nat 0%nat false true false.

(** [wrbyte*8/5], base32.cpp:44, 110, 123 *)
Definition avail32 (wr : nat) : nat := Nat.div (wr * 8) 5.

(** ByteToBase32Convert::getNext, base32.cpp:35-47 *)
Definition enc32_next (s : enc32) : outcome (N * enc32) :=
  let! out := cell (f_out s) (f_rd s) in
  let rd := S (f_rd s) in
  Ok (out, if Nat.eqb rd 8 then mkE32 (f_out s) 0%nat 0%nat false true (f_eolb s)
           else mkE32 (f_out s) (f_wr s) rd (Nat.ltb rd (avail32 (f_wr s))) (f_need s) (f_eolb s)).

(** ByteToBase32Convert::write, base32.cpp:51-96 *)
Definition enc32_write (t : list N) (s : enc32) (item : N) : outcome enc32 :=
  let s := if f_eolb s then mkE32 (f_out s) 0%nat 0%nat (f_has s) (f_need s) false else s in
  match f_wr s with
  | 0%nat =>
      let! c0 := tab t (N.shiftr item 3) in
      let! o := setc (f_out s) 0%nat c0 in
      let! o := setc o 1%nat (N.shiftl (N.land item 7) 2) in
      Ok (mkE32 o 1%nat (f_rd s) true (f_need s) (f_eolb s))
  | 1%nat =>
      let! p := cell (f_out s) 1%nat in
      let! c1 := tab t (N.lor p (N.shiftr item 6)) in
      let! c2 := tab t (N.land (N.shiftr item 1) 31) in
      let! o := setc (f_out s) 1%nat c1 in
      let! o := setc o 2%nat c2 in
      let! o := setc o 3%nat (N.shiftl (N.land item 1) 4) in
      Ok (mkE32 o 2%nat (f_rd s) true (f_need s) (f_eolb s))
  | 2%nat =>
      let! p := cell (f_out s) 3%nat in
      let! c3 := tab t (N.lor p (N.shiftr item 4)) in
      let! o := setc (f_out s) 3%nat c3 in
      let! o := setc o 4%nat (N.shiftl (N.land item 15) 1) in
      Ok (mkE32 o 3%nat (f_rd s) true (f_need s) (f_eolb s))
  | 3%nat =>
      let! p := cell (f_out s) 4%nat in
      let! c4 := tab t (N.lor p (N.shiftr item 7)) in
      let! c5 := tab t (N.land (N.shiftr item 2) 31) in
      let! o := setc (f_out s) 4%nat c4 in
      let! o := setc o 5%nat c5 in
      let! o := setc o 6%nat (N.shiftl (N.land item 3) 3) in
      Ok (mkE32 o 4%nat (f_rd s) true (f_need s) (f_eolb s))
  | 4%nat =>
      let! p := cell (f_out s) 6%nat in
      let! c6 := tab t (N.lor p (N.shiftr item 5)) in
      let! c7 := tab t (N.land item 31) in
      let! o := setc (f_out s) 6%nat c6 in
      let! o := setc o 7%nat c7 in
      Ok (mkE32 o 5%nat (f_rd s) true false (f_eolb s))
  | _ => Throw
  end.

(** the padding loop, base32.cpp:113-117 *)
Fixpoint pad_from (n : nat) (idx : nat) (pad : N) (o : list (option N)) : outcome (list (option N)) :=
  match n with
  | O => Ok o
  | S n => if Nat.ltb idx 8 then let! o := setc o idx pad in pad_from n (S idx) pad o else Ok o
  end.

(** ByteToBase32Convert::flush, base32.cpp:98-124 *)
Definition enc32_flush (t : list N) (pad : N) (s : enc32) : outcome enc32 :=
  if f_eolb s then Ok s else
  let! (o, wr) :=
    (if Nat.ltb 0 (f_wr s) && Nat.ltb (f_wr s) 5 then
       let idx := avail32 (f_wr s) in
       let! p := cell (f_out s) idx in
       let! ch := tab t p in
       let! o := setc (f_out s) idx ch in
       if pad =? 0 then Ok (o, f_wr s)
       else let! o := pad_from 8 (S idx) pad o in Ok (o, 5%nat)
     else Ok (f_out s, f_wr s)) in
  Ok (mkE32 o wr (f_rd s) (Nat.ltb (f_rd s) (avail32 wr)) false true).

Definition enc32_conv (t : list N) (pad : N) : conv enc32 N N :=
  mkConv f_has f_eolb (enc32_write t) enc32_next (enc32_flush t pad).

(** Base32ToByteConvert, base32.h:100-105 *)
Record dec32 := mkD32 {
  g_out : list (option N); g_wr : nat; g_rd : nat; g_has : bool; g_need : bool; g_eolb : bool }.
Definition dec32_init : dec32 := mkD32 (repeat None 5) 0%nat 0%nat false true false.

(** ctype toupper/tolower of the C locale *)
Definition toupper (c : N) : N := if (97 <=? c) && (c <=? 122) then c - 32 else c.
Definition tolower (c : N) : N := if (65 <=? c) && (c <=? 90) then c + 32 else c.

(** Base32ToByteConvert::initTable, base32.cpp:203-218 (mask 31) and
    Base16ToByteConvert::initTable, base16.cpp:96-111 (mask 15): same code except the
    mask.  The flag has the inverted sense: [true] enters both letter cases. *)
Fixpoint initTableCase_from (mask : N) (both : bool) (i : N) (t : list N) (tbl : list (option N))
  : outcome (list (option N)) :=
  match t with
  | [] => Ok tbl
  | ch :: t =>
      if ch <? 128 then
        let! tbl :=
          (if both then
             let! tbl := setc tbl (N.to_nat (toupper ch)) (N.land i mask) in
             setc tbl (N.to_nat (tolower ch)) (N.land i mask)
           else setc tbl (N.to_nat ch) (N.land i mask)) in
        initTableCase_from mask both (i + 1) t tbl
      else Undef
  end.
Definition initTableCase (mask : N) (both : bool) (t : list N) : outcome (list (option N)) :=
  initTableCase_from mask both 0 t (repeat None 256).

(** [wrpos*5/8], base32.cpp:145, 197 *)
Definition bavail32 (wr : nat) : nat := Nat.div (wr * 5) 8.

(** Base32ToByteConvert::getNext, base32.cpp:136-148 *)
Definition dec32_next (s : dec32) : outcome (N * dec32) :=
  let! out := cell (g_out s) (g_rd s) in
  let rd := S (g_rd s) in
  Ok (out, if Nat.eqb rd 5 then mkD32 (g_out s) 0%nat 0%nat false true (g_eolb s)
           else mkD32 (g_out s) (g_wr s) rd (Nat.ltb rd (bavail32 (g_wr s))) (g_need s) (g_eolb s)).

(** [outBytes[i] |= x] *)
Definition or_cell (o : list (option N)) (i : nat) (x : N) : outcome (list (option N)) :=
  let! a := cell o i in setc o i (to_byte (N.lor a x)).

(** Base32ToByteConvert::write, base32.cpp:153-199 *)
Definition dec32_write (tbl : list (option N)) (pad : N) (s : dec32) (item : N) : outcome dec32 :=
  if item =? pad then Ok (mkD32 (g_out s) (g_wr s) (g_rd s) (g_has s) (g_need s) true)
  else
    let s := if g_eolb s then mkD32 (g_out s) 0%nat 0%nat (g_has s) (g_need s) false else s in
    let! v := cell tbl (N.to_nat item) in
    let! o :=
      match g_wr s with
      | 0%nat => setc (g_out s) 0%nat (to_byte (N.shiftl v 3))
      | 1%nat => let! o := or_cell (g_out s) 0%nat (N.shiftr v 2) in
                 setc o 1%nat (to_byte (N.shiftl v 6))
      | 2%nat => or_cell (g_out s) 1%nat (N.shiftl v 1)
      | 3%nat => let! o := or_cell (g_out s) 1%nat (N.shiftr v 4) in
                 setc o 2%nat (to_byte (N.shiftl v 4))
      | 4%nat => let! o := or_cell (g_out s) 2%nat (N.shiftr v 1) in
                 setc o 3%nat (to_byte (N.shiftl v 7))
      | 5%nat => or_cell (g_out s) 3%nat (N.shiftl v 2)
      | 6%nat => let! o := or_cell (g_out s) 3%nat (N.shiftr v 3) in
                 setc o 4%nat (to_byte (N.shiftl v 5))
      | 7%nat => or_cell (g_out s) 4%nat v
      | _ => Throw
      end in
    let wr := S (g_wr s) in
    Ok (mkD32 o wr (g_rd s) (Nat.ltb (g_rd s) (bavail32 wr)) (g_need s) (g_eolb s)).

(** Base32ToByteConvert::flush, base32.cpp:200-202 *)
Definition dec32_flush (s : dec32) : outcome dec32 :=
  Ok (mkD32 (g_out s) (g_wr s) (g_rd s) (g_has s) (g_need s) true).

Definition dec32_conv (tbl : list (option N)) (pad : N) : conv dec32 N N :=
  mkConv g_has g_eolb (dec32_write tbl pad) dec32_next dec32_flush.

Definition base32_encode (t : list N) (pad : N) (xs : list N) : outcome (list N) :=
  push_all (enc32_conv t pad) enc32_init xs.
Definition base32_decode (tbl : outcome (list (option N))) (pad : N) (xs : list N) : outcome (list N) :=
  let! tbl := tbl in push_all (dec32_conv tbl pad) dec32_init xs.
