(** Specification of MD5 after RFC 1321, independent of the model: the padding of
    section 3.1-3.2, the loop of section 3.4 and the output of section 3.5. *)
From Verif Require Import Common.
Local Open Scope N_scope.

Definition w32 (x : N) : N := x mod 2 ^ 32.
Definition not32 (x : N) : N := 2 ^ 32 - 1 - x.
(** X <<< s, the circular shift of a 32-bit word to the left *)
Definition rotl (x s : N) : N := (x * 2 ^ s) mod 2 ^ 32 + x / 2 ^ (32 - s).

(** numbers as bytes, low-order byte first *)
Fixpoint le_bytes (n : nat) (v : N) : list N :=
  match n with
  | O => []
  | S m => v mod 256 :: le_bytes m (v / 256)
  end.
Fixpoint le_value (l : list N) : N :=
  match l with
  | [] => 0
  | b :: t => b + 256 * le_value t
  end.

(** 3.1, 3.2: a one bit, zero bits up to 448 modulo 512, the length in bits *)
Definition zeros (len : N) : nat := N.to_nat ((119 - len mod 64) mod 64).
Definition md5_pad (m : list N) : list N :=
  let len := N.of_nat (length m) in
  m ++ 128 :: repeat 0 (zeros len) ++ le_bytes 8 ((8 * len) mod 2 ^ 64).

(** the table T[1..64] *)
Definition md5_T : list N :=
  [0xd76aa478; 0xe8c7b756; 0x242070db; 0xc1bdceee;
   0xf57c0faf; 0x4787c62a; 0xa8304613; 0xfd469501;
   0x698098d8; 0x8b44f7af; 0xffff5bb1; 0x895cd7be;
   0x6b901122; 0xfd987193; 0xa679438e; 0x49b40821;
   0xf61e2562; 0xc040b340; 0x265e5a51; 0xe9b6c7aa;
   0xd62f105d; 0x02441453; 0xd8a1e681; 0xe7d3fbc8;
   0x21e1cde6; 0xc33707d6; 0xf4d50d87; 0x455a14ed;
   0xa9e3e905; 0xfcefa3f8; 0x676f02d9; 0x8d2a4c8a;
   0xfffa3942; 0x8771f681; 0x6d9d6122; 0xfde5380c;
   0xa4beea44; 0x4bdecfa9; 0xf6bb4b60; 0xbebfbc70;
   0x289b7ec6; 0xeaa127fa; 0xd4ef3085; 0x04881d05;
   0xd9d4d039; 0xe6db99e5; 0x1fa27cf8; 0xc4ac5665;
   0xf4292244; 0x432aff97; 0xab9423a7; 0xfc93a039;
   0x655b59c3; 0x8f0ccc92; 0xffeff47d; 0x85845dd1;
   0x6fa87e4f; 0xfe2ce6e0; 0xa3014314; 0x4e0811a1;
   0xf7537e82; 0xbd3af235; 0x2ad7d2bb; 0xeb86d391].

(** the per-round shift amounts and the auxiliary functions *)
Definition md5_shifts : list (list N) :=
  [[7; 12; 17; 22]; [5; 9; 14; 20]; [4; 11; 16; 23]; [6; 10; 15; 21]].
Definition md5_fun (i : nat) (x y z : N) : N :=
  match (i / 16)%nat with
  | 0%nat => N.lor (N.land x y) (N.land (not32 x) z)
  | 1%nat => N.lor (N.land x z) (N.land y (not32 z))
  | 2%nat => N.lxor (N.lxor x y) z
  | _ => N.lxor y (N.lor x (not32 z))
  end.
(** which word of the block operation i uses *)
Definition md5_index (i : nat) : nat :=
  match (i / 16)%nat with
  | 0%nat => i
  | 1%nat => ((5 * i + 1) mod 16)%nat
  | 2%nat => ((3 * i + 5) mod 16)%nat
  | _ => ((7 * i) mod 16)%nat
  end.

Definition quad : Type := N * N * N * N.
(** a = b + ((a + f(b,c,d) + X[k] + T[i]) <<< s), then the registers change names *)
Definition md5_operation (X : list N) (st : quad) (i : nat) : quad :=
  let '(a, b, c, d) := st in
  let t := w32 (a + md5_fun i b c d + nth (md5_index i mod 16) X 0 + nth i md5_T 0) in
  let s := nth (i mod 4) (nth (i / 16) md5_shifts []) 0 in
  (d, w32 (b + rotl t s), b, c).

(** a block of 64 bytes as 16 words *)
Fixpoint le_words (n : nat) (l : list N) : list N :=
  match n with
  | O => []
  | S m => le_value (firstn 4 l) :: le_words m (skipn 4 l)
  end.

Definition md5_block (st : quad) (block : list N) : quad :=
  let '(a, b, c, d) := st in
  let '(a', b', c', d') := fold_left (md5_operation (le_words 16 block)) (seq 0 64) st in
  (w32 (a + a'), w32 (b + b'), w32 (c + c'), w32 (d + d')).

(** the blocks of a message, one after another *)
Fixpoint blocks (n : nat) (l : list N) : list (list N) :=
  match n with
  | O => []
  | S m => firstn 64 l :: blocks m (skipn 64 l)
  end.
Definition in_blocks (l : list N) : list (list N) := blocks (length l / 64) l.

Definition md5_start : quad := (0x67452301, 0xefcdab89, 0x98badcfe, 0x10325476).
Definition md5_bytes (st : quad) : list N :=
  let '(a, b, c, d) := st in le_bytes 4 a ++ le_bytes 4 b ++ le_bytes 4 c ++ le_bytes 4 d.
Definition MD5 (m : list N) : list N :=
  md5_bytes (fold_left md5_block (in_blocks (md5_pad m)) md5_start).

(** the padding ends a block exactly *)
Lemma md5_pad_blocks m : (length (md5_pad m) mod 64 = 0)%nat.
Proof.
  unfold md5_pad. rewrite app_length. cbn [length]. rewrite app_length, repeat_length.
  cbn [le_bytes length]. unfold zeros. set (k := length m).
  assert (Hk : (k = 64 * (k / 64) + k mod 64)%nat) by (apply Nat.div_mod; discriminate).
  assert (H : (k mod 64 < 64)%nat) by (apply Nat.mod_upper_bound; discriminate).
  replace (N.of_nat k mod 64) with (N.of_nat (k mod 64)) by (rewrite Nat2N.inj_mod; reflexivity).
  set (r := (k mod 64)%nat) in *. set (q := (k / 64)%nat) in *.
  destruct (Nat.le_gt_cases r 55).
  - rewrite N.mod_eq by discriminate.
    replace ((119 - N.of_nat r) / 64) with 1.
    + replace (k + S (N.to_nat (119 - N.of_nat r - 64 * 1) + 8))%nat with (0 + (q + 1) * 64)%nat by lia.
      rewrite Nat.mod_add by discriminate. reflexivity.
    + apply N.div_unique with (55 - N.of_nat r); lia.
  - rewrite N.mod_small by lia.
    replace (k + S (N.to_nat (119 - N.of_nat r) + 8))%nat with (0 + (q + 2) * 64)%nat by lia.
    rewrite Nat.mod_add by discriminate. reflexivity.
Qed.

(** ** What is delivered to a hashing iterator *)
(** an item is given by its bytes; of a block the next iterator takes the first [taken] items *)
Inductive delivery := Item (x : list N) | Items (buffer : list (list N)) (taken : nat).
Definition taken_items (c : delivery) : list (list N) :=
  match c with
  | Item x => [x]
  | Items b k => firstn k b
  end.

(** hexadecimal digits, high half of a byte first *)
Definition hex_digits : list N := [48; 49; 50; 51; 52; 53; 54; 55; 56; 57; 97; 98; 99; 100; 101; 102].
Definition lower_hex (l : list N) : list N :=
  flat_map (fun b => [nth (N.to_nat (b / 16)) hex_digits 0; nth (N.to_nat (b mod 16)) hex_digits 0]) l.
