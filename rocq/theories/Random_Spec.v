(** What generators of random numbers should do *)
From Verif Require Import Common.
Open Scope Z_scope.

(** a number of 32 bits *)
Definition u32 (x : Z) : Prop := 0 <= x < 2 ^ 32.
(** [f] spreads the 2^32 values of the source over [lo .. hi - 1]: the sources of each value are an interval, and the lengths
    of any two of these intervals differ by at most one *)
Definition spreads (f : Z -> Z) (lo hi : Z) : Prop :=
  exists start : Z -> Z, start lo = 0 /\ start hi = 2 ^ 32
    /\ (forall v, lo <= v < hi -> start v < start (v + 1) /\ forall r, u32 r -> (f r = v <-> start v <= r < start (v + 1)))
    /\ (forall v w, lo <= v < hi -> lo <= w < hi -> (start (v + 1) - start v) - (start (w + 1) - start w) <= 1).
