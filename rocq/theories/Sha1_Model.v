(** Model of src/lightspeed/utils/impl/sha1.cpp and sha1.h.

    The type uint32 of the class is [unsigned long], sha1.h:38: 64 bits wide on most 64-bit
    systems, 32 on Windows.  The model takes the width [W] as a parameter; registers and block
    words then carry garbage above bit 31. *)
From Verif Require Import Common Sha1_Spec.
Local Open Scope N_scope.

Section Width.
Variable W : N.
(** arithmetic of uint32 *)
Definition wr (x : N) : N := x mod 2 ^ W.

(** rol, sha1.cpp:149 *)
Definition rol (value bits : N) : N :=
  N.lor (wr (N.shiftl value bits)) (N.shiftr (N.land value 0xffffffff) (32 - bits)).

(** the local variables a..e of transform, sha1.cpp:141-146 *)
Inductive var := Va | Vb | Vc | Vd | Ve.
Definition vars : Type := N * N * N * N * N.
Definition get (s : vars) (r : var) : N :=
  let '(a, b, c, d, e) := s in
  match r with Va => a | Vb => b | Vc => c | Vd => d | Ve => e end.
Definition set (s : vars) (r : var) (n : N) : vars :=
  let '(a, b, c, d, e) := s in
  match r with
  | Va => (n, b, c, d, e) | Vb => (a, n, c, d, e) | Vc => (a, b, n, d, e)
  | Vd => (a, b, c, n, e) | Ve => (a, b, c, d, n)
  end.

(** blk, sha1.cpp:150: the word, also stored into the block *)
Definition blk (block : list N) (i : nat) : N * list N :=
  let at_ := fun k => nth (Nat.land k 15) block 0 in
  let x := rol (N.lxor (N.lxor (N.lxor (at_ (i + 13)%nat) (at_ (i + 8)%nat)) (at_ (i + 2)%nat)) (at_ i)) 1 in
  (x, upd block (Nat.land i 15) x).

(** the macros, sha1.cpp:153-157: function, word of the block, constant *)
Inductive macro := R0 | R1 | R2 | R3 | R4.
Definition mix (m : macro) (w x y : N) : N :=
  match m with
  | R0 | R1 => N.lxor (N.land w (N.lxor x y)) y
  | R2 | R4 => N.lxor (N.lxor w x) y
  | R3 => N.lor (N.land (N.lor w x) y) (N.land w x)
  end.
Definition word (m : macro) (block : list N) (i : nat) : N * list N :=
  match m with
  | R0 => (nth i block 0, block)
  | _ => blk block i
  end.
Definition constant (m : macro) : N :=
  match m with R0 | R1 => 0x5a827999 | R2 => 0x6ed9eba1 | R3 => 0x8f1bbcdc | R4 => 0xca62c1d6 end.

(** one use of a macro: R(v,w,x,y,z,i) *)
Record op := Op { o_m : macro; o_v : var; o_w : var; o_x : var; o_y : var; o_z : var; o_i : nat }.
Definition run_op (s : vars * list N) (o : op) : vars * list N :=
  let '(r, block) := s in
  let '(b, block) := word (o_m o) block (o_i o) in
  let r := set r (o_z o)
    (wr (get r (o_z o) + (mix (o_m o) (get r (o_w o)) (get r (o_x o)) (get r (o_y o)) + b + constant (o_m o) + rol (get r (o_v o)) 5))) in
  (set r (o_w o) (rol (get r (o_w o)) 30), block).
(** sha1.cpp:160-239 *)
Definition program : list op :=
  [Op R0 Va Vb Vc Vd Ve 0; Op R0 Ve Va Vb Vc Vd 1;
   Op R0 Vd Ve Va Vb Vc 2; Op R0 Vc Vd Ve Va Vb 3;
   Op R0 Vb Vc Vd Ve Va 4; Op R0 Va Vb Vc Vd Ve 5;
   Op R0 Ve Va Vb Vc Vd 6; Op R0 Vd Ve Va Vb Vc 7;
   Op R0 Vc Vd Ve Va Vb 8; Op R0 Vb Vc Vd Ve Va 9;
   Op R0 Va Vb Vc Vd Ve 10; Op R0 Ve Va Vb Vc Vd 11;
   Op R0 Vd Ve Va Vb Vc 12; Op R0 Vc Vd Ve Va Vb 13;
   Op R0 Vb Vc Vd Ve Va 14; Op R0 Va Vb Vc Vd Ve 15;
   Op R1 Ve Va Vb Vc Vd 16; Op R1 Vd Ve Va Vb Vc 17;
   Op R1 Vc Vd Ve Va Vb 18; Op R1 Vb Vc Vd Ve Va 19;
   Op R2 Va Vb Vc Vd Ve 20; Op R2 Ve Va Vb Vc Vd 21;
   Op R2 Vd Ve Va Vb Vc 22; Op R2 Vc Vd Ve Va Vb 23;
   Op R2 Vb Vc Vd Ve Va 24; Op R2 Va Vb Vc Vd Ve 25;
   Op R2 Ve Va Vb Vc Vd 26; Op R2 Vd Ve Va Vb Vc 27;
   Op R2 Vc Vd Ve Va Vb 28; Op R2 Vb Vc Vd Ve Va 29;
   Op R2 Va Vb Vc Vd Ve 30; Op R2 Ve Va Vb Vc Vd 31;
   Op R2 Vd Ve Va Vb Vc 32; Op R2 Vc Vd Ve Va Vb 33;
   Op R2 Vb Vc Vd Ve Va 34; Op R2 Va Vb Vc Vd Ve 35;
   Op R2 Ve Va Vb Vc Vd 36; Op R2 Vd Ve Va Vb Vc 37;
   Op R2 Vc Vd Ve Va Vb 38; Op R2 Vb Vc Vd Ve Va 39;
   Op R3 Va Vb Vc Vd Ve 40; Op R3 Ve Va Vb Vc Vd 41;
   Op R3 Vd Ve Va Vb Vc 42; Op R3 Vc Vd Ve Va Vb 43;
   Op R3 Vb Vc Vd Ve Va 44; Op R3 Va Vb Vc Vd Ve 45;
   Op R3 Ve Va Vb Vc Vd 46; Op R3 Vd Ve Va Vb Vc 47;
   Op R3 Vc Vd Ve Va Vb 48; Op R3 Vb Vc Vd Ve Va 49;
   Op R3 Va Vb Vc Vd Ve 50; Op R3 Ve Va Vb Vc Vd 51;
   Op R3 Vd Ve Va Vb Vc 52; Op R3 Vc Vd Ve Va Vb 53;
   Op R3 Vb Vc Vd Ve Va 54; Op R3 Va Vb Vc Vd Ve 55;
   Op R3 Ve Va Vb Vc Vd 56; Op R3 Vd Ve Va Vb Vc 57;
   Op R3 Vc Vd Ve Va Vb 58; Op R3 Vb Vc Vd Ve Va 59;
   Op R4 Va Vb Vc Vd Ve 60; Op R4 Ve Va Vb Vc Vd 61;
   Op R4 Vd Ve Va Vb Vc 62; Op R4 Vc Vd Ve Va Vb 63;
   Op R4 Vb Vc Vd Ve Va 64; Op R4 Va Vb Vc Vd Ve 65;
   Op R4 Ve Va Vb Vc Vd 66; Op R4 Vd Ve Va Vb Vc 67;
   Op R4 Vc Vd Ve Va Vb 68; Op R4 Vb Vc Vd Ve Va 69;
   Op R4 Va Vb Vc Vd Ve 70; Op R4 Ve Va Vb Vc Vd 71;
   Op R4 Vd Ve Va Vb Vc 72; Op R4 Vc Vd Ve Va Vb 73;
   Op R4 Vb Vc Vd Ve Va 74; Op R4 Va Vb Vc Vd Ve 75;
   Op R4 Ve Va Vb Vc Vd 76; Op R4 Vd Ve Va Vb Vc 77;
   Op R4 Vc Vd Ve Va Vb 78; Op R4 Vb Vc Vd Ve Va 79].

Record state := { digest : vars; buffer : list N; transforms : N }.

(** reset, sha1.cpp:120-132 *)
Definition reset : state :=
  {| digest := (0x67452301, 0xefcdab89, 0x98badcfe, 0x10325476, 0xc3d2e1f0); buffer := []; transforms := 0 |}.

(** transform, sha1.cpp:139-250: the block is changed too *)
Definition transform (s : state) (block : list N) : state * list N :=
  let '(d0, d1, d2, d3, d4) := digest s in
  let '((a, b, c, d, e), block) := fold_left run_op program (digest s, block) in
  ({| digest := (wr (d0 + a), wr (d1 + b), wr (d2 + c), wr (d3 + d), wr (d4 + e));
      buffer := buffer s; transforms := (transforms s + 1) mod 2 ^ 64 |}, block).

(** an int with these four bytes, converted to uint32: a negative one fills the bits above 31 *)
Definition int_to_word (n : N) : N := if n <? 2 ^ 31 then n else wr (2 ^ W + n - 2 ^ 32).
(** buffer_to_block, sha1.cpp:253-263; it needs 64 characters *)
Definition buffer_to_block (b : list N) : outcome (list N) :=
  if Nat.ltb (length b) 64 then Undef
  else
    let c := fun k => nth k b 0 in
    Ok (map (fun i : nat => int_to_word
               (N.lor (N.lor (N.lor (c (4 * i + 3)%nat) (N.shiftl (c (4 * i + 2)%nat) 8))
                             (N.shiftl (c (4 * i + 1)%nat) 16)) (N.shiftl (c (4 * i)%nat) 24)))
            (seq 0 16)).

(** std::istream: the characters to come and whether it converts to true *)
Record istream := { data : list N; good : bool }.
(** read, sha1.cpp:266-271: istream::read stores what there is and fails if that is too little *)
Definition read (is : istream) (max : nat) : list N * istream :=
  if good is then
    if Nat.leb max (length (data is))
    then (firstn max (data is), {| data := skipn max (data is); good := true |})
    else (data is, {| data := []; good := false |})
  else ([], is).

(** the loop of update, sha1.cpp:50-56; [fuel] bounds the number of rounds *)
Fixpoint update_loop (fuel : nat) (s : state) (is : istream) : outcome state :=
  match fuel with
  | O => NoFuel
  | S f =>
      if good is then
        let! block := buffer_to_block (buffer s) in
        let '(s, _) := transform s block in
        let '(b, is) := read is 64 in
        update_loop f {| digest := digest s; buffer := b; transforms := transforms s |} is
      else Ok s
  end.
(** update(std::istream &), sha1.cpp:44-57 *)
Definition update (s : state) (is : istream) : outcome state :=
  let '(rest, is) := read is (64 - length (buffer s)) in
  update_loop (length (data is) + 2)
    {| digest := digest s; buffer := buffer s ++ rest; transforms := transforms s |} is.
(** update(const std::string &), sha1.cpp:37-41 *)
Definition update_string (s : state) (x : list N) : outcome state := update s {| data := x; good := true |}.

(** the bytes put out, sha1.cpp:95-102 *)
Definition out_bytes (w : N) : list N := map (fun j => N.land (N.shiftr w (8 * N.of_nat (3 - j))) 0xFF) (seq 0 4).

(** final, sha1.cpp:64-108 *)
Definition final (s : state) : outcome (list N * state) :=
  let total_bits := ((transforms s * 64 + N.of_nat (length (buffer s))) * 8) mod 2 ^ 64 in
  let b := buffer s ++ [0x80] in
  let orig_size := length b in
  let b := b ++ repeat 0 (64 - length b) in
  let! block := buffer_to_block b in
  let '(s, block) :=
    if Nat.ltb (64 - 8) orig_size then
      let '(s, block) := transform s block in
      (s, repeat 0 14 ++ skipn 14 block)
    else (s, block) in
  let block := upd block 15 (wr total_bits) in
  let block := upd block 14 (wr (N.shiftr total_bits 32)) in
  let '(s, _) := transform s block in
  let '(a, b, c, d, e) := digest s in
  Ok (out_bytes a ++ out_bytes b ++ out_bytes c ++ out_bytes d ++ out_bytes e, reset).

(** sequences of update calls, and of messages, on one object *)
Fixpoint updates (s : state) (l : list piece) : outcome state :=
  match l with
  | [] => Ok s
  | PString x :: t => let! s := update_string s x in updates s t
  | PStream x g :: t => let! s := update s {| data := x; good := g |} in updates s t
  end.
Fixpoint messages (s : state) (l : list (list piece)) : outcome (list (list N)) :=
  match l with
  | [] => Ok []
  | m :: t =>
      let! s := updates s m in
      let! r := final s in
      let '(d, s) := r in
      let! ds := messages s t in
      Ok (d :: ds)
  end.
(** SHA1(), sha1.cpp:31-34 *)
Definition sha1_new : state := reset.
End Width.
