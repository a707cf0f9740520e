(** Specification of UTF-8 (RFC 3629): the shortest form of a code point. *)
From Verif Require Import Common.
Local Open Scope N_scope.

Definition utf8_standard (c : N) : list N :=
  if c <=? 0x7F then [c]
  else if c <=? 0x7FF then [0xC0 + c / 64; 0x80 + c mod 64]
  else if c <=? 0xFFFF then [0xE0 + c / 4096; 0x80 + (c / 64) mod 64; 0x80 + c mod 64]
  else [0xF0 + c / 262144; 0x80 + (c / 4096) mod 64; 0x80 + (c / 64) mod 64; 0x80 + c mod 64].

Definition code_point (c : N) : Prop := c <= 0x10FFFF.
