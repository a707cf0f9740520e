(** Model of ByteToBase64Convert / Base64ToByteConvert,
    /repo/src/lightspeed/utils/base64.h:27-111 and base64.cpp:16-220.

    Characters and bytes are numbers 0..255 ([char] is identified with its byte
    pattern).  Buffer cells hold [None] while uninitialised; reading such a cell,
    reading an unset entry of the decode table or indexing past a table is [Undef]. *)
From Verif Require Import Common Conv_Model.
Local Open Scope N_scope.

(** base64.cpp:16-17 *)
Definition std_alphabet : list N :=
  [65;66;67;68;69;70;71;72;73;74;75;76;77;78;79;80;81;82;83;84;85;86;87;88;89;90;
   97;98;99;100;101;102;103;104;105;106;107;108;109;110;111;112;113;114;115;116;117;118;119;120;121;122;
   48;49;50;51;52;53;54;55;56;57;43;47].
Definition url_alphabet : list N :=
  [65;66;67;68;69;70;71;72;73;74;75;76;77;78;79;80;81;82;83;84;85;86;87;88;89;90;
   97;98;99;100;101;102;103;104;105;106;107;108;109;110;111;112;113;114;115;116;117;118;119;120;121;122;
   48;49;50;51;52;53;54;55;56;57;45;95].

(** base64.h:65-67 *)
Definition standardPadding : N := 61.
Definition noPadding : N := 0.

(** indexing of the encode table (a ConstStrA) *)
Definition tab (t : list N) (i : N) : outcome N :=
  match nth_error t (N.to_nat i) with Some c => Ok c | None => Undef end.

(** reading a buffer cell *)
Definition cell (b : list (option N)) (i : nat) : outcome N :=
  match nth_error b i with Some (Some c) => Ok c | _ => Undef end.
(** writing a buffer cell; out of bounds is undefined *)
Definition setc (b : list (option N)) (i : nat) (x : N) : outcome (list (option N)) :=
  if Nat.ltb i (length b) then Ok (upd b i (Some x)) else Undef.

(** fields of ByteToBase64Convert, base64.h:70-80, and the flags of IConverter *)
Record enc64 := mkE64 {
  e_out : list (option N); e_wr : nat; e_rd : nat; e_has : bool; e_need : bool; e_eolb : bool }.

(** base64.cpp:25-34, iterConv.h:375-379 *)
Definition enc64_init : enc64 := mkE64 [None;None;None;None] 0%nat 0%nat false true false.

(** ByteToBase64Convert::getNext, base64.cpp:37-49 *)
Definition enc64_next (s : enc64) : outcome (N * enc64) :=
  let! out := cell (e_out s) (e_rd s) in
  let rd := S (e_rd s) in
  Ok (out, if Nat.eqb rd 4 then mkE64 (e_out s) 0%nat 0%nat false true (e_eolb s)
           else mkE64 (e_out s) (e_wr s) rd (Nat.ltb rd (e_wr s)) (e_need s) (e_eolb s)).

(** ByteToBase64Convert::write, base64.cpp:53-96 *)
Definition enc64_write (t : list N) (s : enc64) (item : N) : outcome enc64 :=
  let s := if e_eolb s then mkE64 (e_out s) 0%nat 0%nat (e_has s) (e_need s) false else s in
  match e_wr s with
  | 0%nat =>
      let! c0 := tab t (N.shiftr item 2) in
      let! o := setc (e_out s) 0%nat c0 in
      let! o := setc o 1%nat (N.shiftl (N.land item 3) 4) in
      Ok (mkE64 o 1%nat (e_rd s) true (e_need s) (e_eolb s))
  | 1%nat =>
      let! p := cell (e_out s) 1%nat in
      let! c1 := tab t (N.lor p (N.shiftr item 4)) in
      let! o := setc (e_out s) 1%nat c1 in
      let! o := setc o 2%nat (N.shiftl (N.land item 15) 2) in
      Ok (mkE64 o 2%nat (e_rd s) true (e_need s) (e_eolb s))
  | 2%nat =>
      let! p := cell (e_out s) 2%nat in
      let! c2 := tab t (N.lor p (N.shiftr item 6)) in
      let! c3 := tab t (N.land item 63) in
      let! o := setc (e_out s) 2%nat c2 in
      let! o := setc o 3%nat c3 in
      Ok (mkE64 o 4%nat (e_rd s) true false (e_eolb s))
  | _ => Throw
  end.

(** ByteToBase64Convert::flush, base64.cpp:98-147 *)
Definition enc64_flush (t : list N) (pad : N) (s : enc64) : outcome enc64 :=
  if e_eolb s then Ok s else
  let! (o, wr) :=
    match e_wr s with
    | 1%nat =>
        let! p := cell (e_out s) 1%nat in
        let! c1 := tab t p in
        let! o := setc (e_out s) 1%nat c1 in
        if pad =? 0 then Ok (o, 2%nat)
        else let! o := setc o 2%nat pad in
             let! o := setc o 3%nat pad in Ok (o, 4%nat)
    | 2%nat =>
        let! p := cell (e_out s) 2%nat in
        let! c2 := tab t p in
        let! o := setc (e_out s) 2%nat c2 in
        if pad =? 0 then Ok (o, 3%nat)
        else let! o := setc o 3%nat pad in Ok (o, 4%nat)
    | w => Ok (e_out s, w)
    end in
  Ok (mkE64 o wr (e_rd s) (Nat.ltb (e_rd s) wr) false true).

Definition enc64_conv (t : list N) (pad : N) : conv enc64 N N :=
  mkConv e_has e_eolb (enc64_write t) enc64_next (enc64_flush t pad).

(** fields of Base64ToByteConvert, base64.h:103-109 *)
Record dec64 := mkD64 {
  d_out : list (option N); d_wr : nat; d_rd : nat; d_has : bool; d_need : bool; d_eolb : bool }.

Definition dec64_init : dec64 := mkD64 [None;None;None] 0%nat 0%nat false true false.

(** Base64ToByteConvert::initTable, base64.cpp:215-220; the array is a member without
    initialiser, so all other entries stay uninitialised.  The index
    [(unsigned int)(t[i])] of a char above 127 is out of bounds. *)
Fixpoint initTable_from (i : N) (t : list N) (tbl : list (option N)) : outcome (list (option N)) :=
  match t with
  | [] => Ok tbl
  | ch :: t =>
      if ch <? 128 then
        let! tbl := setc tbl (N.to_nat ch) (N.land i 63) in initTable_from (i + 1) t tbl
      else Undef
  end.
Definition initTable (t : list N) : outcome (list (option N)) :=
  initTable_from 0 t (repeat None 256).

(** default constructor, base64.cpp:149-155: standard table, '-' is 62 and '_' is 63 *)
Definition dec_table_default : outcome (list (option N)) :=
  let! tbl := initTable std_alphabet in
  let! tbl := setc tbl 45%nat 62 in
  setc tbl 95%nat 63.

(** Base64ToByteConvert::getNext, base64.cpp:162-174 *)
Definition dec64_next (s : dec64) : outcome (N * dec64) :=
  let! out := cell (d_out s) (d_rd s) in
  let rd := S (d_rd s) in
  Ok (out, if Nat.eqb rd 3 then mkD64 (d_out s) 0%nat 0%nat false true (d_eolb s)
           else mkD64 (d_out s) (d_wr s) rd (Nat.ltb (S rd) (d_wr s)) (d_need s) (d_eolb s)).

(** conversion int -> byte on assignment *)
Definition to_byte (x : N) : N := x mod 256.

(** Base64ToByteConvert::write, base64.cpp:179-211 *)
Definition dec64_write (tbl : list (option N)) (pad : N) (s : dec64) (item : N) : outcome dec64 :=
  if item =? pad then Ok (mkD64 (d_out s) (d_wr s) (d_rd s) (d_has s) (d_need s) true)
  else
    let s := if d_eolb s then mkD64 (d_out s) 0%nat 0%nat (d_has s) (d_need s) false else s in
    let! v := cell tbl (N.to_nat item) in
    let! (o, wr) :=
      match d_wr s with
      | 0%nat =>
          let! o := setc (d_out s) 0%nat (to_byte (N.shiftl v 2)) in Ok (o, 1%nat)
      | 1%nat =>
          let! a := cell (d_out s) 0%nat in
          let! o := setc (d_out s) 0%nat (to_byte (N.lor a (N.shiftr v 4))) in
          let! o := setc o 1%nat (to_byte (N.shiftl v 4)) in Ok (o, 2%nat)
      | 2%nat =>
          let! a := cell (d_out s) 1%nat in
          let! o := setc (d_out s) 1%nat (to_byte (N.lor a (N.shiftr v 2))) in
          let! o := setc o 2%nat (to_byte (N.shiftl v 6)) in Ok (o, 3%nat)
      | 3%nat =>
          let! a := cell (d_out s) 2%nat in
          let! o := setc (d_out s) 2%nat (to_byte (N.lor a v)) in Ok (o, 4%nat)
      | _ => Throw
      end in
    Ok (mkD64 o wr (d_rd s) (Nat.ltb (S (d_rd s)) wr) (d_need s) (d_eolb s)).

(** Base64ToByteConvert::flush, base64.cpp:212-214 *)
Definition dec64_flush (s : dec64) : outcome dec64 :=
  Ok (mkD64 (d_out s) (d_wr s) (d_rd s) (d_has s) (d_need s) true).

Definition dec64_conv (tbl : list (option N)) (pad : N) : conv dec64 N N :=
  mkConv d_has d_eolb (dec64_write tbl pad) dec64_next dec64_flush.

(** whole conversions: ConvertWriteIter life cycle (write every item, destructor flushes) *)
Definition base64_encode (t : list N) (pad : N) (xs : list N) : outcome (list N) :=
  push_all (enc64_conv t pad) enc64_init xs.
Definition base64_decode (tbl : outcome (list (option N))) (pad : N) (xs : list N) : outcome (list N) :=
  let! tbl := tbl in push_all (dec64_conv tbl pad) dec64_init xs.
