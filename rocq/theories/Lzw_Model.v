(** Model of LZWCompress and LZWDecompress, src/lightspeed/utils/lzw.{h,tcc,cpp}.
    Codes are 16 bit (ChainCode).  The variants LZWpCompress / LZWpDecompress, which
    prune the dictionary instead of clearing it, are not modelled (nor the marks they
    need). *)
From Verif Require Import Common Conv_Model Base64_Model.
Local Open Scope N_scope.

(** lzw.h:20-34 *)
Definition clearCode : N := 256.
Definition endData : N := 257.
Definition firstChainCode : N := 258.
Definition nullChainCode : N := 0xFFFF.
Definition maxAllowedBits : N := 15.
Definition initialBits : N := 9.

Definition u16 (x : N) : N := x mod 2 ^ 16.
Definition u8 (x : N) : N := x mod 2 ^ 8.

(** lzw.h:143-158 OutBuff, ring of 16 bytes *)
Record outbuff := mkOB { ob_buf : list (option N); ob_wr : nat; ob_rd : nat; ob_bits : N; ob_acc : N }.
(** lzw.tcc:252-255 *)
Definition ob_init : outbuff := mkOB (repeat None 16) 0 0 8 0.
(** lzw.tcc:258-262 *)
Definition ob_next (o : outbuff) : outcome (N * outbuff) :=
  let! b := cell (ob_buf o) (ob_rd o) in
  Ok (b, mkOB (ob_buf o) (ob_wr o) ((ob_rd o + 1) mod 16)%nat (ob_bits o) (ob_acc o)).
(** lzw.tcc:270-281; the loop runs at most once for each byte of the 16 bit code *)
Fixpoint ob_write (fuel : nat) (o : outbuff) (code bits : N) : outcome outbuff :=
  if ob_bits o <=? bits then
    match fuel with
    | O => NoFuel
    | S f =>
        let bits := bits - ob_bits o in
        let! buf := setc (ob_buf o) (ob_wr o) (u8 (N.lor (ob_acc o) (N.shiftr code bits))) in
        ob_write f (mkOB buf ((ob_wr o + 1) mod 16)%nat (ob_rd o) 8 0) (N.land code (N.ones bits)) bits
    end
  else Ok (mkOB (ob_buf o) (ob_wr o) (ob_rd o) (ob_bits o - bits)
             (u8 (N.lor (ob_acc o) (N.shiftl code (ob_bits o - bits))))).
(** lzw.tcc:284-286 *)
Definition ob_has (o : outbuff) : bool := negb (Nat.eqb (ob_rd o) (ob_wr o)).
(** lzw.tcc:289-295 *)
Definition ob_pad (o : outbuff) : outcome outbuff :=
  let! buf := setc (ob_buf o) (ob_wr o) (ob_acc o) in
  Ok (mkOB buf ((ob_wr o + 1) mod 16)%nat (ob_rd o) 8 0).

(** Dictionary, lzw.h:57-91, lzw.cpp:171-221: for every code a list of (byte, code)
    pairs, newest first; here one association list for all, newest first, which
    gives the same answers *)
Definition dict := list (N * N * N).   (* prevCode, byte, code *)
Fixpoint findCode (d : dict) (prev b : N) : option N :=
  match d with
  | [] => None
  | (p, x, c) :: t => if (p =? prev) && (x =? b) then Some c else findCode t prev b
  end.

(** LZWCompressBase, lzw.h:104-169 *)
Record lenc := mkLE {
  le_dict : dict; le_next : N; le_cur : N; le_bits : N; le_max : N;
  le_out : outbuff; le_has : bool; le_need : bool; le_eolb : bool }.

(** lzw.tcc:19-25 *)
Definition lenc_init (maxBits : N) : lenc :=
  mkLE [] firstChainCode nullChainCode initialBits
    (u16 (2 ^ (if maxAllowedBits <? maxBits then maxAllowedBits else maxBits) - 4))
    ob_init false true false.

(** lzw.tcc:28-34 *)
Definition lenc_next (s : lenc) : outcome (N * lenc) :=
  let! (b, o) := ob_next (le_out s) in
  let h := ob_has o in
  Ok (b, mkLE (le_dict s) (le_next s) (le_cur s) (le_bits s) (le_max s) o h (negb h) (le_eolb s)).

(** lzw.tcc:126-130 writeCode *)
Definition writeCode (s : lenc) (code : N) : outcome lenc :=
  let! o := ob_write 4 (le_out s) code (le_bits s) in
  let h := ob_has o in
  Ok (mkLE (le_dict s) (le_next s) (le_cur s) (le_bits s) (le_max s) o h (negb h) (le_eolb s)).

(** lzw.tcc:43-53 writeClearCode *)
Definition writeClearCode (s : lenc) (code : N) : outcome lenc :=
  let! s := writeCode s code in
  Ok (mkLE [] firstChainCode nullChainCode initialBits (le_max s) (le_out s) (le_has s) (le_need s) (le_eolb s)).

(** lzw.tcc:56-62 increaseBits *)
Definition increaseBits (bits newCode : N) : N :=
  if newCode =? 2 ^ bits then bits + 1 else bits.

(** lzw.tcc:71-102 write, with LZWCompress::onClearCode (lzw.cpp:157-159) *)
Definition lenc_write (s : lenc) (b : N) : outcome lenc :=
  match findCode (le_dict s) (le_cur s) b with
  | None =>
      if le_cur s =? nullChainCode then
        Ok (mkLE (le_dict s) (le_next s) b (le_bits s) (le_max s) (le_out s) (le_has s) (le_need s) false)
      else
        let! s := writeCode s (le_cur s) in
        let newCode := le_next s in
        let s := mkLE ((le_cur s, b, newCode) :: le_dict s) (u16 (newCode + 1)) (le_cur s)
                   (increaseBits (le_bits s) newCode) (le_max s)
                   (le_out s) (le_has s) (le_need s) (le_eolb s) in
        let! s := if newCode =? le_max s then writeClearCode s clearCode else Ok s in
        Ok (mkLE (le_dict s) (le_next s) b (le_bits s) (le_max s) (le_out s) (le_has s) (le_need s) (le_eolb s))
  | Some c =>
      Ok (mkLE (le_dict s) (le_next s) c (le_bits s) (le_max s) (le_out s) (le_has s) (le_need s) (le_eolb s))
  end.

(** lzw.tcc:105-123 flush *)
Definition lenc_flush (s : lenc) : outcome lenc :=
  let! s :=
    if le_cur s =? nullChainCode then Ok s
    else
      let! s := writeCode s (le_cur s) in
      let newCode := le_next s in
      let s := mkLE (le_dict s) (u16 (newCode + 1)) (le_cur s) (increaseBits (le_bits s) newCode) (le_max s)
                 (le_out s) (le_has s) (le_need s) (le_eolb s) in
      let! s := writeClearCode s endData in
      let! o := ob_pad (le_out s) in
      Ok (mkLE (le_dict s) (le_next s) nullChainCode (le_bits s) (le_max s) o (le_has s) (le_need s) (le_eolb s)) in
  Ok (mkLE (le_dict s) (le_next s) (le_cur s) (le_bits s) (le_max s) (le_out s) (le_has s) true true).

Definition lenc_conv : conv lenc N N := mkConv le_has le_eolb lenc_write lenc_next lenc_flush.

(** LZWDecompressBase, lzw.h:172-215; [ld_dict] holds (outByte, prevCode),
    [ld_outb] is outbytes with its last element first (a stack) *)
Record ldec := mkLD {
  ld_dict : list (N * N); ld_prev : N; ld_acc : N; ld_inb : N; ld_bits : N;
  ld_outb : list N; ld_has : bool; ld_need : bool; ld_eolb : bool }.

(** lzw.tcc:133-136 *)
Definition ldec_init : ldec := mkLD [] nullChainCode 0 0 initialBits [] false true false.

(** lzw.tcc:139-145 getNext.  (The code returns a reference to the element just cut
    off; the value is still there.) *)
Definition ldec_next (s : ldec) : outcome (N * ldec) :=
  match ld_outb s with
  | [] => Undef
  | b :: t => Ok (b, mkLD (ld_dict s) (ld_prev s) (ld_acc s) (ld_inb s) (ld_bits s) t
                       (match t with [] => false | _ => true end)
                       (match t with [] => true | _ => false end) (ld_eolb s))
  end.

(** lzw.tcc:224-235 extractCode: walks the chain; the bytes come out last first, so
    the stack grows in front.  [stack] holds the [reserve] part. *)
Fixpoint extractCode (fuel : nat) (d : list (N * N)) (code : N) (stack : list N) : outcome (list N) :=
  if firstChainCode <=? code then
    match fuel with
    | O => NoFuel
    | S f => match nth_error d (N.to_nat (code - firstChainCode)) with
             | None => Undef
             | Some (b, p) => extractCode f d p (b :: stack)
             end
    end
  else Ok (u8 code :: stack).

(** lzw.tcc:238-249 appendBits *)
Definition appendBits (s : ldec) (b : N) : option N * ldec :=
  let acc := N.lor (N.shiftl (ld_acc s) 8) b mod 2 ^ 64 in
  let inb := ld_inb s + 8 in
  if ld_bits s <=? inb then
    let inb := inb - ld_bits s in
    (Some (u16 (N.shiftr acc inb)),
     mkLD (ld_dict s) (ld_prev s) (N.land acc (N.ones inb)) inb (ld_bits s) (ld_outb s) (ld_has s) (ld_need s) (ld_eolb s))
  else
    (None, mkLD (ld_dict s) (ld_prev s) acc inb (ld_bits s) (ld_outb s) (ld_has s) (ld_need s) (ld_eolb s)).

(** lzw.tcc:154-160 and lzw.cpp:161-164, clearDict *)
Definition clearDict (s : ldec) : ldec :=
  mkLD [] nullChainCode (ld_acc s) (ld_inb s) 9 (ld_outb s) false true (ld_eolb s).

(** lzw.tcc:177-206, the three ways to treat a data code: bytes to output and the
    dictionary; [None] is onUnknownCode, which throws *)
Definition decodeData (s : ldec) (code : N) : outcome (list N * list (N * N)) :=
  let d := ld_dict s in
  let prev := ld_prev s in
  let nextCode := u16 (N.of_nat (length d) + firstChainCode) in
  if code <? 256 then
    Ok ([code], if prev =? nullChainCode then d else d ++ [(code, prev)])
  else if code =? nextCode then
    if prev =? nullChainCode then Throw
    else
      let! st := extractCode (S (length d)) d prev [0] in
      match st with
      | [] => Undef
      | f :: _ => Ok (removelast st ++ [f], d ++ [(f, prev)])
      end
  else if code <? nextCode then
    let! st := extractCode (S (length d)) d code [] in
    match st with
    | [] => Undef
    | f :: _ => Ok (st, if prev =? nullChainCode then d else d ++ [(f, prev)])
    end
  else Throw.

(** lzw.tcc:163-217 write *)
Definition ldec_write (s : ldec) (b : N) : outcome ldec :=
  let (oc, s) := appendBits s b in
  match oc with
  | None => Ok s
  | Some code =>
      if code =? clearCode then
        let s := clearDict s in
        Ok (mkLD (ld_dict s) (ld_prev s) (ld_acc s) (ld_inb s) (ld_bits s) (ld_outb s) (ld_has s) (negb (ld_has s)) (ld_eolb s))
      else if code =? endData then
        (* [prevCode = null]: null is the enumerator 0, types.h:75-78 *)
        Ok (mkLD (ld_dict s) 0 0 0 (ld_bits s) (ld_outb s) (ld_has s) (negb (ld_has s)) true)
      else
        let nextCode := u16 (N.of_nat (length (ld_dict s)) + firstChainCode) in
        let! (out, d) := decodeData s code in
        Ok (mkLD d code (ld_acc s) (ld_inb s)
              (if nextCode + 1 =? 2 ^ ld_bits s then ld_bits s + 1 else ld_bits s)
              out true false false)
  end.

(** lzw.tcc:220-221 flush does nothing *)
Definition ldec_conv : conv ldec N N := mkConv ld_has ld_eolb ldec_write ldec_next (fun s => Ok s).

Definition lzw_compress (maxBits : N) (xs : list N) : outcome (list N) :=
  push_all lenc_conv (lenc_init maxBits) xs.
Definition lzw_decompress (fuel : nat) (zs : list N) : outcome (list N) :=
  pull_n ldec_conv fuel ldec_init zs.
