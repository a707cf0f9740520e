(** Specification of CRC-32 (ISO-HDLC / IEEE 802.3), bit by bit, as a division by
    the generator polynomial; independent of the table. *)
From Verif Require Import Common.
Local Open Scope N_scope.

(** polynomial in reflected order: bit k of the word is the coefficient of x^(31-k) *)
Definition poly : N := 0xEDB88320.

(** one step of the division *)
Definition bit_step (r : N) : N :=
  if N.testbit r 0 then N.lxor (N.shiftr r 1) poly else N.shiftr r 1.

(** the message bits, least significant bit of every byte first *)
Definition byte_bits (b : N) : list bool := map (fun k => N.testbit b (N.of_nat k)) (seq 0 8).
Definition feed_bit (r : N) (m : bool) : N := bit_step (N.lxor r (N.b2n m)).

Definition crc32 (msg : list N) : N :=
  N.lxor (fold_left feed_bit (flat_map byte_bits msg) 0xFFFFFFFF) 0xFFFFFFFF.

