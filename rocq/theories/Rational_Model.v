(** Model of class rational, src/lightspeed/base/rational.h.
    [integer] is a signed and [natural] an unsigned 64 bit number.  Where the two meet in
    one operation C++ computes with unsigned numbers and the result wraps; signed overflow
    is undefined behaviour.  The conversion from double (lines 356-373) is not modelled. *)
From Coq Require Import ZArith.
From Verif Require Import Common.
Local Open Scope Z_scope.

Definition u64 (z : Z) : Z := z mod 2 ^ 64.
Definition s64 (z : Z) : Z := (z + 2 ^ 63) mod 2 ^ 64 - 2 ^ 63.
(** result of a signed operation *)
Definition signed (z : Z) : outcome Z := if (- 2 ^ 63 <=? z) && (z <? 2 ^ 63) then Ok z else Undef.

(** rational.h:49-51 *)
Record rational := mkRat { num : Z; den : Z }.

(** ** gcd *)
(** rational.h:140-141 and 145-146: halve while even; zero would loop for ever *)
Fixpoint strip2 (fuel : nat) (v : Z) : outcome Z :=
  if Z.even v then match fuel with O => NoFuel | S f => strip2 f (v / 2) end else Ok v.

(** rational.h:135-138: common powers of two; returns u, v and the shift *)
Fixpoint common2 (fuel : nat) (u v s : Z) : outcome (Z * Z * Z) :=
  if Z.even (Z.lor u v) then match fuel with O => NoFuel | S f => common2 f (u / 2) (v / 2) (s + 1) end
  else Ok (u, v, s).

(** rational.h:144-158, the do loop *)
Fixpoint gcdLoop (fuel : nat) (u v : Z) : outcome Z :=
  match fuel with
  | O => NoFuel
  | S f =>
      let! v := strip2 64 v in
      let '(u, v) := if u <? v then (u, v - u) else (v, u - v) in
      let v := v / 2 in
      if v =? 0 then Ok u else gcdLoop f u v
  end.

(** rational.h:126-162 *)
Definition gcd (u v : Z) : outcome Z :=
  if (u =? 0) || (v =? 0) then Ok (Z.lor u v)
  else
    let! (u, v, shift) := common2 64 u v 0 in
    let! u := strip2 64 u in
    let! u := gcdLoop 129 u v in
    Ok (u64 (u * 2 ^ shift)).

(** rational.h:385-388 *)
Definition ratGcd (r : rational) : outcome Z :=
  if num r <? 0 then let! m := signed (- num r) in gcd m (den r) else gcd (num r) (den r).

(** rational.h:376-383; [n /= curgcd] divides as unsigned *)
Fixpoint normalize (fuel : nat) (r : rational) : outcome rational :=
  let! g := ratGcd r in
  if 1 <? g then
    match fuel with
    | O => NoFuel
    | S f => normalize f (mkRat (s64 (u64 (num r) / g)) (den r / g))
    end
  else Ok r.

(** ** arithmetic *)
(** rational.h:183-187 *)
Definition inv (r : rational) : outcome rational :=
  let tmpd := s64 (den r) in
  if num r <? 0 then let! a := signed (- tmpd) in let! b := signed (- num r) in Ok (mkRat a (u64 b))
  else Ok (mkRat tmpd (u64 (num r))).
(** rational.h:194-196 *)
Definition ratAdd (a b : rational) : outcome rational :=
  normalize 3 (mkRat (s64 (u64 (num a * den b + num b * den a))) (u64 (den a * den b))).
(** rational.h:202-204 *)
Definition ratSub (a b : rational) : outcome rational :=
  normalize 3 (mkRat (s64 (u64 (num a * den b - num b * den a))) (u64 (den a * den b))).
(** rational.h:211-213; [n*other.n] is a signed product *)
Definition ratMul (a b : rational) : outcome rational :=
  let! p := signed (num a * num b) in normalize 3 (mkRat p (u64 (den a * den b))).
(** rational.h:219-221 *)
Definition ratDiv (a b : rational) : outcome rational := let! i := inv b in ratMul a i.

(** rational.h:257-259 *)
Definition lessThan (a b : rational) : outcome bool :=
  let! x := signed (num a * s64 (den b)) in
  let! y := signed (num b * s64 (den a)) in
  let! d := signed (x - y) in
  Ok (d <? 0).

(** rational.h:295-300, 308-313 and 322-324; the quotients are unsigned *)
Definition ratFloor (r : rational) : Z :=
  let intr := s64 (u64 (num r) / den r) in
  let frac := s64 (u64 (num r) mod den r) in
  if frac <? 0 then intr - 1 else intr.
Definition ratCeil (r : rational) : Z :=
  let intr := s64 (u64 (num r) / den r) in
  let frac := s64 (u64 (num r) mod den r) in
  if 0 <? frac then intr + 1 else intr.
Definition ratRound (r : rational) : outcome Z :=
  let! s := ratAdd r (mkRat 1 2) in Ok (ratFloor s).

(** rational.h:344-353, at type natural: the products wrap *)
Fixpoint powerLoop (fuel : nat) (acc cur expo : Z) : outcome Z :=
  if expo =? 0 then Ok cur
  else match fuel with
       | O => NoFuel
       | S f => powerLoop f (if Z.odd expo then u64 (acc * cur) else acc) (u64 (cur * cur)) (expo / 2)
       end.
Definition powerNumberU (n expo : Z) : outcome Z := powerLoop 64 1 n expo.
(** the same at type integer: overflow is undefined *)
Fixpoint powerLoopS (fuel : nat) (acc cur expo : Z) : outcome Z :=
  if expo =? 0 then Ok cur
  else match fuel with
       | O => NoFuel
       | S f =>
           let! acc := (if Z.odd expo then signed (acc * cur) else Ok acc) in
           let! cur := signed (cur * cur) in
           powerLoopS f acc cur (expo / 2)
       end.
Definition powerNumberS (n expo : Z) : outcome Z := powerLoopS 64 1 n expo.

(** rational.h:331-335 *)
Definition ratPower (r : rational) (expo : Z) : outcome rational :=
  if expo =? 0 then Ok (mkRat 1 1)
  else
    let! (r, expo) := (if expo <? 0 then let! i := inv r in let! e := signed (- expo) in Ok (i, e) else Ok (r, expo)) in
    let! a := powerNumberS (num r) expo in
    let! b := powerNumberU (den r) expo in
    normalize 3 (mkRat a b).
