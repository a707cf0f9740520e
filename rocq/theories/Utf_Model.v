(** Model of Utf8ToWideConvert and WideToUtf8Convert,
    /repo/src/lightspeed/base/streams/utf.h:13-45 and utf.cpp:120-235.
    [wchar_t] is the 32-bit signed type of Linux; only non-negative values are
    modelled.  A left shift whose result does not fit in 31 bits is [Undef]. *)
From Verif Require Import Common Conv_Model Base64_Model.
Local Open Scope N_scope.

(** WideToUtf8Convert: outchars[10] and rdpos, utf.h:43-44; the constructor
    (utf.cpp:181-182) leaves rdpos uninitialised; it is set by the first write *)
Record wenc := mkWE { we_out : list (option N); we_rd : option nat; we_has : bool; we_need : bool }.
Definition wenc_init : wenc := mkWE (repeat None 10) None false true.

(** updateState, utf.cpp:231-235 *)
Definition wenc_update (o : list (option N)) (rd : nat) : wenc :=
  let need := Nat.eqb rd 10 in mkWE o (Some rd) (negb need) need.
(** getNext, utf.cpp:184-188 *)
Definition wenc_next (s : wenc) : outcome (N * wenc) :=
  match we_rd s with
  | None => Undef
  | Some rd => let! b := cell (we_out s) rd in Ok (b, wenc_update (we_out s) (S rd))
  end.
(** first byte and number of following bytes, utf.cpp:200-221; the cast to [char]
    followed by an OR and the store into a byte is reduction modulo 256 *)
Definition utf_class (c : N) : N * nat :=
  if c <? 128 then (c mod 256, 0%nat)
  else if c <? 0x7ff then (N.lor (N.shiftr c 6) 0xC0 mod 256, 1%nat)
  else if c <? 0xffff then (N.lor (N.shiftr c 12) 0xE0 mod 256, 2%nat)
  else if c <? 0x1fffff then (N.lor (N.shiftr c 18) 0xF0 mod 256, 3%nat)
  else if c <? 0x3ffffff then (N.lor (N.shiftr c 24) 0xF8 mod 256, 4%nat)
  else if c <? 0x7ffffff then (N.lor (N.shiftr c 30) 0xFC mod 256, 5%nat)
  else (0xFE, 6%nat).
(** the loop, utf.cpp:222-225: [rdpos] goes down *)
Fixpoint put_parts (parts : nat) (c : N) (o : list (option N)) (rd : nat) : outcome (list (option N) * nat) :=
  match parts with
  | O => Ok (o, rd)
  | S p =>
      match rd with
      | O => Undef
      | S rd => let! o := setc o rd (N.lor 0x80 (N.land c 0x3F)) in put_parts p (N.shiftr c 6) o rd
      end
  end.
(** write, utf.cpp:194-229 *)
Definition wenc_write (s : wenc) (c : N) : outcome wenc :=
  let (fbyte, parts) := utf_class c in
  let! (o, rd) := put_parts parts c (we_out s) 10 in
  match rd with
  | O => Undef
  | S rd => let! o := setc o rd fbyte in Ok (wenc_update o rd)
  end.
Definition wenc_conv : conv wenc N N :=
  mkConv we_has (fun _ => false) wenc_write wenc_next (fun s => Ok s).

(** Utf8ToWideConvert, utf.h:26-29; state 0xff is the initial state *)
Record wdec := mkWD { wd_out : option N; wd_st : N; wd_has : bool; wd_need : bool }.
(** utf.cpp:120-124 *)
Definition wdec_init : wdec := mkWD None 0xff false true.
(** updateState, utf.cpp:126-129 *)
Definition wdec_update (o : option N) (st : N) : wdec := mkWD o st (negb (0 <? st)) (0 <? st).
(** getNext, utf.cpp:131-135 *)
Definition wdec_next (s : wdec) : outcome (N * wdec) :=
  match wd_out s with Some c => Ok (c, wdec_update (wd_out s) 0xff) | None => Undef end.
Definition shl6 (x : N) : outcome N := if x * 64 <? 2 ^ 31 then Ok (x * 64) else Undef.
(** write, utf.cpp:141-179 *)
Definition wdec_write (skip : bool) (s : wdec) (a : N) : outcome wdec :=
  if wd_st s =? 0 then Throw
  else if wd_st s =? 0xff then
    if a <? 0x80 then Ok (wdec_update (Some a) 0)
    else if (0x80 <=? a) && (a <? 0xc0) then
      if skip then Ok (wdec_update (Some a) 0) else Throw
    else if (0xC0 <=? a) && (a <? 0xE0) then Ok (wdec_update (Some (N.land a 0x1F)) 1)
    else if (0xE0 <=? a) && (a <? 0xF0) then Ok (wdec_update (Some (N.land a 0x0F)) 2)
    else if (0xF0 <=? a) && (a <? 0xF8) then Ok (wdec_update (Some (N.land a 0x07)) 3)
    else if (0xF8 <=? a) && (a <? 0xFC) then Ok (wdec_update (Some (N.land a 0x03)) 4)
    else if (0xFC <=? a) && (a <? 0xFE) then Ok (wdec_update (Some (N.land a 0x01)) 5)
    else if (0xFE <=? a) && (a <? 0xFF) then Ok (wdec_update (Some 0) 6)
    else Ok (wdec_update (wd_out s) (wd_st s))
  else
    if (0x80 <=? a) && (a <? 0xc0) then
      match wd_out s with
      | None => Undef
      | Some c => let! x := shl6 c in Ok (wdec_update (Some (N.lor x (N.land a 0x3F))) (wd_st s - 1))
      end
    else if skip then Ok (wdec_update (Some a) 0) else Throw.
Definition wdec_conv (skip : bool) : conv wdec N N :=
  mkConv wd_has (fun _ => false) (wdec_write skip) wdec_next (fun s => Ok s).

Definition utf8_encode (cs : list N) : outcome (list N) := push_all wenc_conv wenc_init cs.
Definition utf8_decode (skip : bool) (bs : list N) : outcome (list N) := push_all (wdec_conv skip) wdec_init bs.
