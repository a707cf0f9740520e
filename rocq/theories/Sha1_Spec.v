(** Specification of SHA-1 after FIPS 180-4, independent of the model: padding (5.1.1), the
    functions and constants (4.1.1, 4.2.1), the message schedule and the loop (6.1.2). *)
From Verif Require Import Common Md5_Spec.
Local Open Scope N_scope.

Fixpoint be_bytes (n : nat) (v : N) : list N :=
  match n with
  | O => []
  | S m => be_bytes m (v / 256) ++ [v mod 256]
  end.
Definition be_value (l : list N) : N := fold_left (fun v b => 256 * v + b) l 0.

Definition sha1_pad (m : list N) : list N :=
  let len := N.of_nat (length m) in
  m ++ 128 :: repeat 0 (zeros len) ++ be_bytes 8 ((8 * len) mod 2 ^ 64).

Definition sha1_f (t : nat) (x y z : N) : N :=
  match (t / 20)%nat with
  | 0%nat => N.lxor (N.land x y) (N.land (not32 x) z)
  | 2%nat => N.lxor (N.lxor (N.land x y) (N.land x z)) (N.land y z)
  | _ => N.lxor (N.lxor x y) z
  end.
Definition sha1_K (t : nat) : N := nth (t / 20) [0x5a827999; 0x6ed9eba1; 0x8f1bbcdc; 0xca62c1d6] 0.

(** the message schedule: W_t = ROTL 1 (W_(t-3) xor W_(t-8) xor W_(t-14) xor W_(t-16)) *)
Fixpoint extend (n : nat) (w : list N) : list N :=
  match n with
  | O => w
  | S m => let t := length w in
           extend m (w ++ [rotl (N.lxor (N.lxor (N.lxor (nth (t - 3) w 0) (nth (t - 8) w 0)) (nth (t - 14) w 0)) (nth (t - 16) w 0)) 1])
  end.
Fixpoint be_words (n : nat) (l : list N) : list N :=
  match n with
  | O => []
  | S m => be_value (firstn 4 l) :: be_words m (skipn 4 l)
  end.
Definition schedule (block : list N) : list N := extend 64 (be_words 16 block).

Definition quint : Type := N * N * N * N * N.
Definition sha1_round (w : list N) (s : quint) (t : nat) : quint :=
  let '(a, b, c, d, e) := s in
  (w32 (rotl a 5 + sha1_f t b c d + e + sha1_K t + nth t w 0), a, rotl b 30, c, d).
Definition sha1_block (s : quint) (block : list N) : quint :=
  let '(a, b, c, d, e) := s in
  let '(a', b', c', d', e') := fold_left (sha1_round (schedule block)) (seq 0 80) s in
  (w32 (a + a'), w32 (b + b'), w32 (c + c'), w32 (d + d'), w32 (e + e')).

Definition sha1_start : quint := (0x67452301, 0xefcdab89, 0x98badcfe, 0x10325476, 0xc3d2e1f0).
Definition sha1_bytes (s : quint) : list N :=
  let '(a, b, c, d, e) := s in be_bytes 4 a ++ be_bytes 4 b ++ be_bytes 4 c ++ be_bytes 4 d ++ be_bytes 4 e.
Definition SHA1 (m : list N) : list N :=
  sha1_bytes (fold_left sha1_block (in_blocks (sha1_pad m)) sha1_start).

(** what is given to an object: strings, and streams that are readable or not *)
Inductive piece := PString (s : list N) | PStream (s : list N) (good : bool).
Definition piece_bytes (p : piece) : list N :=
  match p with
  | PString s => s
  | PStream s true => s
  | PStream _ false => []
  end.
