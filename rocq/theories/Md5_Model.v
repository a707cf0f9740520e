(** Model of src/lightspeed/utils/impl/md5.cpp and of the iterator of
    src/lightspeed/utils/md5iter.h.

    A word is a number below 2^32, every sum is reduced by [wrap].  The pointer and the
    length passed to md5_append are a list and an int.  The little-endian way of reading a
    block (md5.cpp:165-182) and the portable one (189-203) give the same words, see [X]. *)
From Verif Require Import Common Md5_Spec.
Local Open Scope N_scope.

(** md5_word_t is unsigned int, md5.h:65 *)
Definition wrap (x : N) : N := x mod 4294967296.
(** md5.cpp:74 *)
Definition T_MASK : N := 0xffffffff.
(** md5.cpp:75-138 *)
Definition T1 : N := N.lxor T_MASK 0x28955b87.
Definition T2 : N := N.lxor T_MASK 0x173848a9.
Definition T3 : N := 0x242070db.
Definition T4 : N := N.lxor T_MASK 0x3e423111.
Definition T5 : N := N.lxor T_MASK 0x0a83f050.
Definition T6 : N := 0x4787c62a.
Definition T7 : N := N.lxor T_MASK 0x57cfb9ec.
Definition T8 : N := N.lxor T_MASK 0x02b96afe.
Definition T9 : N := 0x698098d8.
Definition T10 : N := N.lxor T_MASK 0x74bb0850.
Definition T11 : N := N.lxor T_MASK 0x0000a44e.
Definition T12 : N := N.lxor T_MASK 0x76a32841.
Definition T13 : N := 0x6b901122.
Definition T14 : N := N.lxor T_MASK 0x02678e6c.
Definition T15 : N := N.lxor T_MASK 0x5986bc71.
Definition T16 : N := 0x49b40821.
Definition T17 : N := N.lxor T_MASK 0x09e1da9d.
Definition T18 : N := N.lxor T_MASK 0x3fbf4cbf.
Definition T19 : N := 0x265e5a51.
Definition T20 : N := N.lxor T_MASK 0x16493855.
Definition T21 : N := N.lxor T_MASK 0x29d0efa2.
Definition T22 : N := 0x02441453.
Definition T23 : N := N.lxor T_MASK 0x275e197e.
Definition T24 : N := N.lxor T_MASK 0x182c0437.
Definition T25 : N := 0x21e1cde6.
Definition T26 : N := N.lxor T_MASK 0x3cc8f829.
Definition T27 : N := N.lxor T_MASK 0x0b2af278.
Definition T28 : N := 0x455a14ed.
Definition T29 : N := N.lxor T_MASK 0x561c16fa.
Definition T30 : N := N.lxor T_MASK 0x03105c07.
Definition T31 : N := 0x676f02d9.
Definition T32 : N := N.lxor T_MASK 0x72d5b375.
Definition T33 : N := N.lxor T_MASK 0x0005c6bd.
Definition T34 : N := N.lxor T_MASK 0x788e097e.
Definition T35 : N := 0x6d9d6122.
Definition T36 : N := N.lxor T_MASK 0x021ac7f3.
Definition T37 : N := N.lxor T_MASK 0x5b4115bb.
Definition T38 : N := 0x4bdecfa9.
Definition T39 : N := N.lxor T_MASK 0x0944b49f.
Definition T40 : N := N.lxor T_MASK 0x4140438f.
Definition T41 : N := 0x289b7ec6.
Definition T42 : N := N.lxor T_MASK 0x155ed805.
Definition T43 : N := N.lxor T_MASK 0x2b10cf7a.
Definition T44 : N := 0x04881d05.
Definition T45 : N := N.lxor T_MASK 0x262b2fc6.
Definition T46 : N := N.lxor T_MASK 0x1924661a.
Definition T47 : N := 0x1fa27cf8.
Definition T48 : N := N.lxor T_MASK 0x3b53a99a.
Definition T49 : N := N.lxor T_MASK 0x0bd6ddbb.
Definition T50 : N := 0x432aff97.
Definition T51 : N := N.lxor T_MASK 0x546bdc58.
Definition T52 : N := N.lxor T_MASK 0x036c5fc6.
Definition T53 : N := 0x655b59c3.
Definition T54 : N := N.lxor T_MASK 0x70f3336d.
Definition T55 : N := N.lxor T_MASK 0x00100b82.
Definition T56 : N := N.lxor T_MASK 0x7a7ba22e.
Definition T57 : N := 0x6fa87e4f.
Definition T58 : N := N.lxor T_MASK 0x01d3191f.
Definition T59 : N := N.lxor T_MASK 0x5cfebceb.
Definition T60 : N := 0x4e0811a1.
Definition T61 : N := N.lxor T_MASK 0x08ac817d.
Definition T62 : N := N.lxor T_MASK 0x42c50dca.
Definition T63 : N := 0x2ad7d2bb.
Definition T64 : N := N.lxor T_MASK 0x14792c6e.

(** md5.cpp:206 *)
Definition ROTATE_LEFT (x n : N) : N := N.lor (wrap (N.shiftl x n)) (N.shiftr x (32 - n)).
(** the complement of a word *)
Definition compl (x : N) : N := N.lxor x 0xffffffff.
(** md5.cpp:211, 237, 263, 289 *)
Definition F (x y z : N) : N := N.lor (N.land x y) (N.land (compl x) z).
Definition G (x y z : N) : N := N.lor (N.land x z) (N.land y (compl z)).
Definition H (x y z : N) : N := N.lxor (N.lxor x y) z.
Definition I (x y z : N) : N := N.lxor y (N.lor x (compl z)).
(** the local variables a, b, c, d of md5_process, md5.cpp:143-145 *)
Inductive reg := Ra | Rb | Rc | Rd.
Definition get (v : N * N * N * N) (r : reg) : N :=
  let '(a, b, c, d) := v in match r with Ra => a | Rb => b | Rc => c | Rd => d end.
Definition set (v : N * N * N * N) (r : reg) (x : N) : N * N * N * N :=
  let '(a, b, c, d) := v in
  match r with Ra => (x, b, c, d) | Rb => (a, x, c, d) | Rc => (a, b, x, d) | Rd => (a, b, c, x) end.
(** one use of the macro SET: function, registers, index into X, shift, constant *)
Record op := SET { o_f : N -> N -> N -> N; o_a : reg; o_b : reg; o_c : reg; o_d : reg;
                   o_k : nat; o_s : N; o_T : N }.
(** its effect, md5.cpp:212-214, 238-240, 264-266, 290-292 *)
Definition run_op (X : nat -> N) (v : N * N * N * N) (o : op) : N * N * N * N :=
  let t := wrap (get v (o_a o) + o_f o (get v (o_b o)) (get v (o_c o)) (get v (o_d o)) + X (o_k o) + o_T o) in
  set v (o_a o) (wrap (ROTATE_LEFT t (o_s o) + get v (o_b o))).
(** the 64 uses, md5.cpp:216-231, 242-257, 268-283, 294-309 *)
Definition program : list op :=
  [SET F Ra Rb Rc Rd 0 7 T1;
   SET F Rd Ra Rb Rc 1 12 T2;
   SET F Rc Rd Ra Rb 2 17 T3;
   SET F Rb Rc Rd Ra 3 22 T4;
   SET F Ra Rb Rc Rd 4 7 T5;
   SET F Rd Ra Rb Rc 5 12 T6;
   SET F Rc Rd Ra Rb 6 17 T7;
   SET F Rb Rc Rd Ra 7 22 T8;
   SET F Ra Rb Rc Rd 8 7 T9;
   SET F Rd Ra Rb Rc 9 12 T10;
   SET F Rc Rd Ra Rb 10 17 T11;
   SET F Rb Rc Rd Ra 11 22 T12;
   SET F Ra Rb Rc Rd 12 7 T13;
   SET F Rd Ra Rb Rc 13 12 T14;
   SET F Rc Rd Ra Rb 14 17 T15;
   SET F Rb Rc Rd Ra 15 22 T16;
   SET G Ra Rb Rc Rd 1 5 T17;
   SET G Rd Ra Rb Rc 6 9 T18;
   SET G Rc Rd Ra Rb 11 14 T19;
   SET G Rb Rc Rd Ra 0 20 T20;
   SET G Ra Rb Rc Rd 5 5 T21;
   SET G Rd Ra Rb Rc 10 9 T22;
   SET G Rc Rd Ra Rb 15 14 T23;
   SET G Rb Rc Rd Ra 4 20 T24;
   SET G Ra Rb Rc Rd 9 5 T25;
   SET G Rd Ra Rb Rc 14 9 T26;
   SET G Rc Rd Ra Rb 3 14 T27;
   SET G Rb Rc Rd Ra 8 20 T28;
   SET G Ra Rb Rc Rd 13 5 T29;
   SET G Rd Ra Rb Rc 2 9 T30;
   SET G Rc Rd Ra Rb 7 14 T31;
   SET G Rb Rc Rd Ra 12 20 T32;
   SET H Ra Rb Rc Rd 5 4 T33;
   SET H Rd Ra Rb Rc 8 11 T34;
   SET H Rc Rd Ra Rb 11 16 T35;
   SET H Rb Rc Rd Ra 14 23 T36;
   SET H Ra Rb Rc Rd 1 4 T37;
   SET H Rd Ra Rb Rc 4 11 T38;
   SET H Rc Rd Ra Rb 7 16 T39;
   SET H Rb Rc Rd Ra 10 23 T40;
   SET H Ra Rb Rc Rd 13 4 T41;
   SET H Rd Ra Rb Rc 0 11 T42;
   SET H Rc Rd Ra Rb 3 16 T43;
   SET H Rb Rc Rd Ra 6 23 T44;
   SET H Ra Rb Rc Rd 9 4 T45;
   SET H Rd Ra Rb Rc 12 11 T46;
   SET H Rc Rd Ra Rb 15 16 T47;
   SET H Rb Rc Rd Ra 2 23 T48;
   SET I Ra Rb Rc Rd 0 6 T49;
   SET I Rd Ra Rb Rc 7 10 T50;
   SET I Rc Rd Ra Rb 14 15 T51;
   SET I Rb Rc Rd Ra 5 21 T52;
   SET I Ra Rb Rc Rd 12 6 T53;
   SET I Rd Ra Rb Rc 3 10 T54;
   SET I Rc Rd Ra Rb 10 15 T55;
   SET I Rb Rc Rd Ra 1 21 T56;
   SET I Ra Rb Rc Rd 8 6 T57;
   SET I Rd Ra Rb Rc 15 10 T58;
   SET I Rc Rd Ra Rb 6 15 T59;
   SET I Rb Rc Rd Ra 13 21 T60;
   SET I Ra Rb Rc Rd 4 6 T61;
   SET I Rd Ra Rb Rc 11 10 T62;
   SET I Rc Rd Ra Rb 2 15 T63;
   SET I Rb Rc Rd Ra 9 21 T64].

Record md5_state := { count0 : N; count1 : N; abcd : N * N * N * N; buf : list N }.

(** md5_process, md5.cpp:141-319 *)
Definition md5_process (regs : N * N * N * N) (data : list N) : N * N * N * N :=
  let '(a0, b0, c0, d0) := regs in
  let byte := fun k => nth k data 0 in
  let X := fun i : nat =>
    byte (4 * i)%nat + N.shiftl (byte (4 * i + 1)%nat) 8 +
    N.shiftl (byte (4 * i + 2)%nat) 16 + N.shiftl (byte (4 * i + 3)%nat) 24 in
  let '(a, b, c, d) := fold_left (run_op X) program regs in
  (wrap (a0 + a), wrap (b0 + b), wrap (c0 + c), wrap (d0 + d)).

(** md5_init, md5.cpp:321-328; the buffer keeps what was in the memory *)
Definition md5_init (mem : list N) : md5_state :=
  {| count0 := 0; count1 := 0;
     abcd := (0x67452301, N.lxor T_MASK 0x10325476, N.lxor T_MASK 0x67452301, 0x10325476);
     buf := mem |}.

(** memcpy(buf + offset, p, n) *)
Definition blit (b : list N) (offset : nat) (l : list N) : list N :=
  firstn offset b ++ l ++ skipn (offset + length l) b.

(** the loop over full blocks, md5.cpp:360-361; [n] bounds the number of rounds and is the
    number of bytes left *)
Fixpoint full_blocks (n : nat) (regs : N * N * N * N) (p : list N) : (N * N * N * N) * list N :=
  match n with
  | O => (regs, p)
  | S m => if Nat.leb 64 (length p)
           then full_blocks m (md5_process regs (firstn 64 p)) (skipn 64 p)
           else (regs, p)
  end.

Definition INT_MAX : Z := 2147483647.

(** md5_append, md5.cpp:330-366.  [data] holds the bytes that nbytes counts; for nbytes <= 0
    they are not touched.  [nbytes << 3] overflows from 2^28 on: gcc keeps the low 32 bits, which
    is what the following cast does.  An overflow of [offset + nbytes] is undefined. *)
Definition md5_append (st : md5_state) (data : list N) (nbytes : Z) : outcome md5_state :=
  let offset := N.land (N.shiftr (count0 st) 3) 63 in
  let nbits := Z.to_N ((nbytes * 8) mod 4294967296) in
  if (nbytes <=? 0)%Z then Ok st
  else
    let c1 := wrap (count1 st + Z.to_N (Z.shiftr nbytes 29)) in
    let c0 := wrap (count0 st + nbits) in
    let c1 := if c0 <? nbits then wrap (c1 + 1) else c1 in
    let tail := fun (regs : N * N * N * N) (b p : list N) =>
      let '(regs, p) := full_blocks (length p) regs p in
      Ok {| count0 := c0; count1 := c1; abcd := regs;
            buf := if Nat.eqb (length p) 0 then b else blit b 0 p |} in
    if negb (offset =? 0) then
      if (INT_MAX <? Z.of_N offset + nbytes)%Z then Undef
      else
        let copy := if (64 <? Z.of_N offset + nbytes)%Z then (64 - Z.of_N offset)%Z else nbytes in
        let b := blit (buf st) (N.to_nat offset) (firstn (Z.to_nat copy) data) in
        if (Z.of_N offset + copy <? 64)%Z then
          Ok {| count0 := c0; count1 := c1; abcd := abcd st; buf := b |}
        else tail (md5_process (abcd st) b) b (skipn (Z.to_nat copy) data)
    else tail (abcd st) (buf st) data.

(** md5.cpp:370-375 *)
Definition pad : list N := 0x80 :: repeat 0 63.
(** data[i] = (md5_byte_t)(w >> ((i & 3) << 3)) for i = 0..3 *)
Definition word_bytes (w : N) : list N :=
  map (fun i => N.shiftr w (8 * N.of_nat i) mod 256) (seq 0 4).

(** md5_finish, md5.cpp:368-388: the digest and the state left behind *)
Definition md5_finish (st : md5_state) : outcome (list N * md5_state) :=
  let data := word_bytes (count0 st) ++ word_bytes (count1 st) in
  let n := N.land (wrap (55 + 4294967296 - N.shiftr (count0 st) 3)) 63 + 1 in
  let! st := md5_append st (firstn (N.to_nat n) pad) (Z.of_N n) in
  let! st := md5_append st data 8 in
  let '(a, b, c, d) := abcd st in
  Ok (word_bytes a ++ word_bytes b ++ word_bytes c ++ word_bytes d, st).

(** HashMD5, md5iter.h:14-76.  An item is given by its sizeof(T) bytes; [forwarded] is what was
    handed to the next iterator.  [hex0] says whether the first character of _hexdigest is zero
    (md5iter.h:45, 56). *)
Record hash := { st : md5_state; digest : list N; hexdigest : list N; hex0 : bool;
                 forwarded : list (list N) }.

(** HashMD5(), md5iter.h:17-23: the two digest arrays are not set *)
Definition hash_new (mem d h : list N) (z : bool) : hash :=
  {| st := md5_init mem; digest := d; hexdigest := h; hex0 := z; forwarded := [] |}.

(** the conversion of an unsigned 64-bit number to int *)
Definition to_int (n : Z) : Z :=
  let m := (n mod 4294967296)%Z in if (m <? 2147483648)%Z then m else (m - 4294967296)%Z.

(** md5_append with a length of type natural: the bytes are cut to what is counted *)
Definition append_natural (s : md5_state) (data : list N) : outcome md5_state :=
  let n := to_int (Z.of_nat (length data)) in
  md5_append s (firstn (Z.to_nat n) data) n.

(** write, md5iter.h:25-28 *)
Definition hash_write (h : hash) (x : list N) : outcome hash :=
  let! s := append_natural (st h) x in
  Ok {| st := s; digest := digest h; hexdigest := hexdigest h; hex0 := hex0 h;
        forwarded := forwarded h ++ [x] |}.

(** blockWrite, md5iter.h:30-41; [k] is the number of items the next iterator took *)
Definition hash_blockWrite (h : hash) (buffer : list (list N)) (k : nat) : outcome hash :=
  let! s := append_natural (st h) (concat (firstn k buffer)) in
  Ok {| st := s; digest := digest h; hexdigest := hexdigest h; hex0 := hex0 h;
        forwarded := forwarded h ++ firstn k buffer |}.

(** finish and flush, md5iter.h:43-50 *)
Definition hash_finish (h : hash) : outcome hash :=
  let! r := md5_finish (st h) in
  let '(d, s) := r in
  Ok {| st := s; digest := d; hexdigest := hexdigest h; hex0 := true; forwarded := forwarded h |}.

(** hexdigest, md5iter.h:55-69: two loops over the array, done once *)
Definition hash_hexdigest (h : hash) : list N * hash :=
  let x := if hex0 h
           then map (fun z => if z <=? 9 then z + 48 else z + 97 - 10)
                    (flat_map (fun b => [N.shiftr b 4; N.land b 0xF]) (digest h))
           else hexdigest h in
  (x, {| st := st h; digest := digest h; hexdigest := x;
         hex0 := match x with [] => true | c :: _ => c =? 0 end; forwarded := forwarded h |}).

(** a sequence of calls *)
Fixpoint hash_calls (h : hash) (cs : list delivery) : outcome hash :=
  match cs with
  | [] => Ok h
  | Item x :: t => let! h := hash_write h x in hash_calls h t
  | Items b k :: t => let! h := hash_blockWrite h b k in hash_calls h t
  end.
