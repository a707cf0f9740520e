(** Model of Rand, Random<natural>, Random<integer>, base/streams/random.h.

    natural has 64 bits without sign, integer 64 bits with sign.  Random<double> is not modelled. *)
From Verif Require Import Common Random_Spec.
Open Scope Z_scope.

(** random.h:37-39: the value that comes next and the carry *)
Record rnd := mkR { x : Z; crry : Z }.
Definition multiplier : Z := 2083801278.
(** random.h:41-46 *)
Definition fetchNext (s : rnd) : rnd :=
  let multt := (x s * multiplier + crry s) mod 2 ^ 64 in
  mkR (multt mod 2 ^ 32) (multt / 2 ^ 32).
(** random.h:27-31: the value and the next state *)
Definition getNext (s : rnd) : Z * rnd := (x s, fetchNext s).
(** random.h:18-21 *)
Definition setSeed (seed : Z) : rnd := mkR seed 362436069.
(** random.h:11-13; the first value is thrown away *)
Definition create (seed : Z) : rnd := snd (getNext (mkR seed 362436069)).

(** random.h:103-106 *)
Definition transformN (minimum maximum : Z) (r : Z) : Z :=
  let mult := (maximum - minimum) mod 2 ^ 64 in
  let mm := (r * mult) mod 2 ^ 64 in
  (mm / 2 ^ 32 + minimum) mod 2 ^ 64.
(** random.h:56-57, 75-78: the product of signed numbers must not overflow *)
Definition int64 (v : Z) : bool := (- 2 ^ 63 <=? v) && (v <? 2 ^ 63).
Definition transformI (minimum maximum : Z) (r : Z) : outcome Z :=
  let mult := maximum - minimum in
  if negb (int64 mult) then Undef
  else let mm := r * mult in
       if negb (int64 mm) then Undef else Ok (mm / 2 ^ 32).

(** the state after [n] calls of getNext, and the value of the next call *)
Fixpoint after (n : nat) (s : rnd) : rnd := match n with O => s | S n => after n (snd (getNext s)) end.
Definition out (s : rnd) (n : nat) : Z := fst (getNext (after n s)).
(** random.h:64-67, 92-95: a value from a range *)
Definition nextN (lo hi : Z) (s : rnd) : Z * rnd := let r := getNext s in (transformN lo hi (fst r), snd r).
Definition nextI (lo hi : Z) (s : rnd) : outcome Z * rnd := let r := getNext s in (transformI lo hi (fst r), snd r).
