(** Model of ByteToBase16Convert / Base16ToByteConvert,
    /repo/src/lightspeed/utils/base16.h:24-89 and base16.cpp:17-111, and of
    UrlEncodeConvert / UrlDecodeConvert, urlencode.h:20-46 and urlencode.cpp:14-84.
    Characters and bytes are numbers 0..255 (a C++ [char] is identified with its
    unsigned value: the signed comparisons of urlencode.cpp:32-33 reject codes >= 128
    exactly as the unsigned ones do).  Conventions as in Base64_Model.v: an array cell
    that was never written is [None] and reading it is [Undef]. *)
From Verif Require Import Common Conv_Model Base64_Model Base32_Model.
Local Open Scope N_scope.

(** base16.cpp:17-18 *)
Definition hexUpper : list N := [48;49;50;51;52;53;54;55;56;57;65;66;67;68;69;70].
Definition hexLower : list N := [48;49;50;51;52;53;54;55;56;57;97;98;99;100;101;102].

(** ByteToBase16Convert, base16.h:59-66; [eolb] is never changed and stays false *)
Record enc16 := mkE16 { h_out : list (option N); h_rd : nat; h_has : bool; h_need : bool }.
(** base16.cpp:26-35 *)
Definition enc16_init : enc16 := mkE16 [None; None] 0%nat false true.
(** ByteToBase16Convert::getNext, base16.cpp:37-43 *)
Definition enc16_next (s : enc16) : outcome (N * enc16) :=
  let! out := cell (h_out s) (h_rd s) in
  let rd := Nat.modulo (h_rd s + 1) 2 in
  let need := Nat.eqb rd 0 in
  Ok (out, mkE16 (h_out s) rd (negb need) need).
(** ByteToBase16Convert::write, base16.cpp:47-54 *)
Definition enc16_write (t : list N) (s : enc16) (item : N) : outcome enc16 :=
  let! c0 := tab t (N.shiftr item 4) in
  let! c1 := tab t (N.land item 15) in
  let! o := setc (h_out s) 0%nat c0 in
  let! o := setc o 1%nat c1 in
  Ok (mkE16 o 0%nat true false).
(** flush does nothing, base16.cpp:56-57 *)
Definition enc16_conv (t : list N) : conv enc16 N N :=
  mkConv h_has (fun _ => false) (enc16_write t) enc16_next (fun s => Ok s).

(** Base16ToByteConvert, base16.h:82-86 *)
Record dec16 := mkD16 { k_out : option N; k_wr : bool; k_has : bool; k_need : bool }.
(** base16.cpp:59-69 *)
Definition dec16_init : dec16 := mkD16 None false false true.
(** Base16ToByteConvert::getNext, base16.cpp:71-75 *)
Definition dec16_next (s : dec16) : outcome (N * dec16) :=
  match k_out s with
  | Some b => Ok (b, mkD16 (k_out s) (k_wr s) false true)
  | None => Undef
  end.
(** Base16ToByteConvert::write, base16.cpp:80-92 *)
Definition dec16_write (tbl : list (option N)) (s : dec16) (item : N) : outcome dec16 :=
  let! v := cell tbl (N.to_nat item) in
  if k_wr s then
    match k_out s with
    | Some b => Ok (mkD16 (Some (N.lor b v)) false true false)
    | None => Undef
    end
  else Ok (mkD16 (Some (to_byte (N.shiftl v 4))) true false true).
(** Base16ToByteConvert::flush, base16.cpp:93-95 *)
Definition dec16_flush (tbl : list (option N)) (s : dec16) : outcome dec16 :=
  if k_wr s then dec16_write tbl s 0 else Ok s.
Definition dec16_conv (tbl : list (option N)) : conv dec16 N N :=
  mkConv k_has (fun _ => false) (dec16_write tbl) dec16_next (dec16_flush tbl).

Definition base16_encode (t : list N) (xs : list N) : outcome (list N) :=
  push_all (enc16_conv t) enc16_init xs.
(** the constructor Base16ToByteConvert(table, both), base16.cpp:65-69 *)
Definition base16_decode (t : list N) (both : bool) (xs : list N) : outcome (list N) :=
  let! tbl := initTableCase 15 both t in push_all (dec16_conv tbl) dec16_init xs.

(** UrlEncodeConvert, urlencode.h:28-30; it has no constructor: [maxread] and
    [readpos] are indeterminate until the first write (modelled by None) *)
Record urlenc := mkUE { u_buf : list (option N); u_max : option nat; u_rd : option nat; u_has : bool; u_need : bool }.
Definition urlenc_init : urlenc := mkUE [None; None; None] None None false true.
(** UrlEncodeConvert::getNext, urlencode.cpp:14-24 *)
Definition urlenc_next (s : urlenc) : outcome (N * urlenc) :=
  match u_rd s, u_max s with
  | Some rd, Some mx =>
      let! out := cell (u_buf s) rd in
      Ok (out, if Nat.eqb (S rd) mx then mkUE (u_buf s) (Some mx) (Some 0%nat) false true
               else mkUE (u_buf s) (Some mx) (Some (S rd)) (u_has s) (u_need s))
  | _, _ => Undef
  end.
Definition in_range (lo x hi : N) : bool := (lo <=? x) && (x <=? hi).
(** the characters passed unchanged, urlencode.cpp:32-33 *)
Definition url_plain (x : N) : bool :=
  in_range 65 x 90 || in_range 97 x 122 || in_range 48 x 57 || (x =? 95) || (x =? 45).
(** UrlEncodeConvert::write, urlencode.cpp:31-47 *)
Definition urlenc_write (s : urlenc) (x : N) : outcome urlenc :=
  if url_plain x then
    let! b := setc (u_buf s) 0%nat x in
    Ok (mkUE b (Some 1%nat) (Some 0%nat) true false)
  else
    let! b := setc (u_buf s) 0%nat 37 in
    let! e := enc16_write hexUpper enc16_init x in
    let! (c1, e) := enc16_next e in
    let! (c2, e) := enc16_next e in
    let! b := setc b 1%nat c1 in
    let! b := setc b 2%nat c2 in
    Ok (mkUE b (Some 3%nat) (Some 0%nat) true false).
(** flush is inherited and does nothing, iterConv.h:486-487 *)
Definition urlenc_conv : conv urlenc N N :=
  mkConv u_has (fun _ => false) urlenc_write urlenc_next (fun s => Ok s).

(** UrlDecodeConvert, urlencode.h:43-44, constructor urlencode.cpp:50-51 *)
Record urldec := mkUD { w_buf : list (option N); w_pos : nat; w_has : bool; w_need : bool }.
Definition urldec_init : urldec := mkUD [None; None; None] 0%nat false true.
(** UrlDecodeConvert::getNext, urlencode.cpp:53-57 *)
Definition urldec_next (s : urldec) : outcome (N * urldec) :=
  let! out := cell (w_buf s) 0%nat in Ok (out, mkUD (w_buf s) (w_pos s) false true).
(** UrlDecodeConvert::write, urlencode.cpp:63-84; the inner decoder is default
    constructed (upper case digits only) *)
Definition urldec_write (s : urldec) (x : N) : outcome urldec :=
  match w_pos s with
  | S _ =>
      let! b := setc (w_buf s) (w_pos s) x in
      let wr := S (w_pos s) in
      if negb (Nat.eqb wr 3) then Ok (mkUD b wr (w_has s) (w_need s))
      else
        let! c1 := cell b 1%nat in
        let! c2 := cell b 2%nat in
        let! tbl := initTableCase 15 false hexUpper in
        let! d := dec16_write tbl dec16_init c1 in
        let! d := dec16_write tbl d c2 in
        let! (r, d) := dec16_next d in
        let! b := setc b 0%nat r in
        Ok (mkUD b 0%nat true false)
  | O =>
      if x =? 43 then
        let! b := setc (w_buf s) 0%nat 32 in Ok (mkUD b 0%nat true false)
      else
        let! b := setc (w_buf s) 0%nat x in
        if x =? 37 then Ok (mkUD b 1%nat (w_has s) (w_need s))
        else Ok (mkUD b 0%nat true false)
  end.
Definition urldec_conv : conv urldec N N :=
  mkConv w_has (fun _ => false) urldec_write urldec_next (fun s => Ok s).

Definition url_encode (xs : list N) : outcome (list N) := push_all urlenc_conv urlenc_init xs.
Definition url_decode (xs : list N) : outcome (list N) := push_all urldec_conv urldec_init xs.
