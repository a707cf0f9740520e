(** Model of SysTime on Linux (src/lightspeed/mt/linux/systime.h) and of Timeout
    (src/lightspeed/mt/timeout.h).  The clock is an argument.  An overflow of signed arithmetic
    is [Undef]. *)
From Coq Require Import ZArith.
From Verif Require Import Common.
Local Open Scope Z_scope.

(** linux/systime.h:197: struct timeval; the microseconds of nil are never set and never read here *)
Record tv := mkTv { tsec : Z; tusec : Z }.
Definition i64 (x : Z) : outcome Z := if (- 2 ^ 63 <=? x) && (x <? 2 ^ 63) then Ok x else Undef.
Definition u64 (x : Z) : Z := x mod 2 ^ 64.
(** conversion of an unsigned number to time_t *)
Definition s64 (x : Z) : Z := let y := x mod 2 ^ 64 in if y <? 2 ^ 63 then y else y - 2 ^ 64.
Definition naturalNull : Z := 2 ^ 64 - 1.
(** linux/systime.h:30-33, 44-46, 209-211 *)
Definition zeroT : tv := mkTv 0 0.
Definition nilT : tv := mkTv (-1) 0.
Definition isNil (t : tv) : bool := tsec t =? -1.
(** linux/systime.h:60-65: unsigned arithmetic *)
Definition ofParts (d h m s ms : Z) : tv :=
  mkTv (s64 (u64 (u64 (u64 (u64 (u64 (u64 (d * 24) + h) * 60) + m) * 60) + s) + ms / 1000)) ((ms mod 1000) * 1000).
(** linux/systime.h:199-207 *)
Definition normalizeDiv (v n : Z) : Z := if v <? 0 then Z.quot (v - n + 1) n else Z.quot v n.
Definition normalizeMod (v n : Z) : Z := if v <? 0 then n + Z.rem v n else Z.rem v n.
(** linux/systime.h:77-82 *)
Definition add (a b : tv) : outcome tv :=
  if isNil a || isNil b then Ok nilT
  else
    let! s := i64 (tsec a + tsec b) in
    let! s := i64 (s + normalizeDiv (tusec a + tusec b) 1000000) in
    Ok (mkTv s (normalizeMod (tusec a + tusec b) 1000000)).
(** linux/systime.h:84-89 *)
Definition sub (a b : tv) : outcome tv :=
  if isNil a || isNil b then Ok nilT
  else
    let! s := i64 (tsec a - tsec b) in
    let! s := i64 (s + normalizeDiv (tusec a - tusec b) 1000000) in
    Ok (mkTv s (normalizeMod (tusec a - tusec b) 1000000)).
(** linux/systime.h:97-100 *)
Definition msecs (t : tv) : outcome Z :=
  if isNil t then Ok naturalNull
  else let! x := i64 (tsec t * 1000) in let! x := i64 (x + Z.quot (tusec t) 1000) in Ok (u64 x).
(** linux/systime.h:107-139 *)
Definition secs (t : tv) : Z := if isNil t then naturalNull else u64 (tsec t).
Definition mins (t : tv) : Z := if isNil t then naturalNull else u64 (Z.quot (tsec t) 60).
Definition hours (t : tv) : Z := if isNil t then naturalNull else u64 (Z.quot (tsec t) 3600).
Definition days (t : tv) : Z := if isNil t then naturalNull else u64 (Z.quot (tsec t) (3600 * 24)).
(** linux/systime.h:145-175 *)
Definition msec (t : tv) : Z := if isNil t then naturalNull else u64 (Z.quot (tusec t) 1000).
Definition sec (t : tv) : Z := if isNil t then naturalNull else u64 (Z.rem (tsec t) 60).
Definition min (t : tv) : Z := if isNil t then naturalNull else u64 (Z.rem (Z.quot (tsec t) 60) 60).
Definition hour (t : tv) : Z := if isNil t then naturalNull else u64 (Z.rem (Z.quot (tsec t) 3600) 24).
(** linux/systime.h:213-218 *)
Definition less (a b : tv) : bool :=
  if isNil a || isNil b then false
  else (tsec a <? tsec b) || ((tsec a =? tsec b) && (tusec a <? tusec b)).
(** compare.h:64-66, 70-78: operators == and > of ComparableLess *)
Definition eqT (a b : tv) : bool := negb (less a b) && negb (less b a).
Definition gtT (a b : tv) : bool := less b a.

(** timeout.h:56: a number of milliseconds after a point of time; the constructor of line 49 is
    the same for the current time *)
Definition after (tm : tv) (ms : Z) : outcome tv := if ms =? naturalNull then Ok nilT else add tm (ofParts 0 0 0 0 ms).
(** timeout.h:65-66 *)
Definition afterParts (now : tv) (h m s ms : Z) : outcome tv := add now (ofParts 0 h m s ms).
(** timeout.h:82-85 *)
Definition expired (e t : tv) : bool := if isNil t || isNil e then false else gtT t e.
(** timeout.h:104-108 *)
Definition getRemain (e t : tv) : outcome tv :=
  if isNil t || isNil e then Ok nilT else if expired e t then Ok zeroT else sub e t.
(** timeout.h:128-130 *)
Definition isInfinite (e : tv) : bool := isNil e.
(** timeout.h:140-144 *)
Definition lessThan (a b : tv) : bool := if isNil a then false else if isNil b then true else less a b.
(** timeout.h:146-149; the last line is the operator of ComparableLess *)
Definition equalTo (a b : tv) : bool := if isNil a && isNil b then true else eqT a b.

(** ** how the theorems read a time: its microseconds *)
Definition us (t : tv) : Z := tsec t * 1000000 + tusec t.
(** a time as all constructors make it, far from the limits of time_t *)
Definition normal (t : tv) : Prop := 0 <= tusec t < 1000000 /\ - 2 ^ 62 < tsec t < 2 ^ 62.
Definition view (t : tv) : option Z := if isNil t then None else Some (us t).
