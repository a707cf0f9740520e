(** Model of strtod, /repo/src/lightspeed/base/text/strtodouble.cpp.

    A pointer is the rest of the text, at the end it reads 0 (strtodouble.cpp:68); moving it behind the end is undefined.  An int that
    leaves its range is undefined; the text is shorter than 2^31, so the counters of digits do not.  Doubles are IEEE binary64 of the
    standard library (SpecFloat), rounded after each operation.  Characters given to isspace and isdigit are 0 to 127. *)
From Coq Require Import SpecFloat.
From Verif Require Import Common StrToD_Spec.
Open Scope Z_scope.

Definition chr (p : list Z) : Z := match p with [] => 0 | c :: _ => c end.
(** strtodouble.cpp:69-72 *)
Definition adv (p : list Z) : outcome (list Z) := match p with [] => Undef | _ :: t => Ok t end.
Definition isspace (c : Z) : bool := (c =? 32) || ((9 <=? c) && (c <=? 13)).
Definition isdigit (c : Z) : bool := (48 <=? c) && (c <=? 57).
Definition ckint (z : Z) : outcome Z := if (- 2 ^ 31 <=? z) && (z <? 2 ^ 31) then Ok z else Undef.

(** strtodouble.cpp:118-120 *)
Fixpoint skipSpace (p : list Z) : list Z := match p with [] => [] | c :: t => if isspace c then skipSpace t else p end.
(** strtodouble.cpp:121-129, 207-215 *)
Definition readSign (p : list Z) : outcome (bool * list Z) :=
  if chr p =? 45 then let! p := adv p in Ok (true, p) else if chr p =? 43 then let! p := adv p in Ok (false, p) else Ok (false, p).
(** strtodouble.cpp:136-147: mantSize, decPt, p *)
Fixpoint countMant (p : list Z) (mantSize decPt : Z) : Z * Z * list Z :=
  match p with
  | [] => (mantSize, decPt, p)
  | c :: t =>
      if isdigit c then countMant t (mantSize + 1) decPt
      else if negb (c =? 46) || (0 <=? decPt) then (mantSize, decPt, p)
      else countMant t (mantSize + 1) mantSize
  end.
(** strtodouble.cpp:176-185, 187-196: [n] digits *)
Fixpoint collect (n : nat) (p : list Z) (frac : Z) : outcome (Z * list Z) :=
  match n with
  | O => Ok (frac, p)
  | S n =>
      let c := chr p in
      let! p := adv p in
      let! (c, p) := (if c =? 46 then let c := chr p in let! p := adv p in Ok (c, p) else Ok (c, p)) in
      let! frac := ckint (10 * frac + (c - 48)) in
      collect n p frac
  end.
(** strtodouble.cpp:216-219 *)
Fixpoint readExp (p : list Z) (exp : Z) : outcome (Z * list Z) :=
  match p with
  | [] => Ok (exp, p)
  | c :: t => if isdigit c then let! exp := ckint (exp * 10 + (c - 48)) in readExp t exp else Ok (exp, p)
  end.

Definition prec : Z := 53.
Definition emax : Z := 1024.
(** an int, or a constant, as a double *)
Definition dbl (z : Z) : spec_float := binary_normalize prec emax z 0 false.
(** strtodouble.cpp:30-40 *)
Definition powersOf10 : list Z := [10; 100; 10 ^ 4; 10 ^ 8; 10 ^ 16; 10 ^ 32; 10 ^ 64; 10 ^ 128; 10 ^ 256].
(** strtodouble.cpp:245-249 *)
Fixpoint power (fuel : nat) (exp : Z) (d : list Z) (dblExp : spec_float) : outcome spec_float :=
  if exp =? 0 then Ok dblExp
  else match fuel with
       | O => NoFuel
       | S f =>
           let! dblExp := (if Z.odd exp then match d with [] => Undef | x :: _ => Ok (SFmul prec emax dblExp (dbl x)) end else Ok dblExp) in
           power f (exp / 2) (tl d) dblExp
       end.

(** strtodouble.cpp:136-240: what the text says: sign, the two halves of the mantissa, the exponent of ten, the rest of the text;
    [None]: no number *)
Definition scan (string : list Z) : outcome (option (bool * Z * Z * Z * list Z)) :=
  let p := skipSpace string in
  let! (sign, p) := readSign p in
  let '(mantSize, decPt, pExp) := countMant p 0 (-1) in
  let '(mantSize, decPt) := if decPt <? 0 then (mantSize, mantSize) else (mantSize - 1, decPt) in
  let '(mantSize, fracExp) := if 18 <? mantSize then (18, decPt - 18) else (mantSize, decPt - mantSize) in
  if mantSize =? 0 then Ok None
  else
    let! (frac1, p) := collect (Z.to_nat (mantSize - 9)) p 0 in
    let! (frac2, p) := collect (Z.to_nat (Z.min 9 mantSize)) p 0 in
    let! (exp, expSign, p) :=
      (if (chr pExp =? 69) || (chr pExp =? 101) then
         let! p := adv pExp in
         let! (s, p) := readSign p in
         let! (exp, p) := readExp p 0 in
         Ok (exp, s, p)
       else Ok (0, false, pExp)) in
    let! exp := ckint (if expSign : bool then fracExp - exp else fracExp + exp) in
    Ok (Some (sign, frac1, frac2, exp, p)).
(** strtodouble.cpp:197, 234-265: the double and the number of characters *)
Definition strtod (string : list Z) : outcome (spec_float * nat) :=
  let! r := scan string in
  match r : option (bool * Z * Z * Z * list Z) with
  | None => let! (sign, _) := readSign (skipSpace string) in Ok (if sign : bool then SFopp (dbl 0) else dbl 0, 0%nat)
  | Some (sign, frac1, frac2, exp, p) =>
      let fraction := SFadd prec emax (SFmul prec emax (dbl (10 ^ 9)) (dbl frac1)) (dbl frac2) in
      let expSign := exp <? 0 in
      let! exp := ckint (Z.abs exp) in
      if 511 <? exp then Throw
      else
        let! dblExp := power 9 exp powersOf10 (dbl 1) in
        let fraction := if expSign then SFdiv prec emax fraction dblExp else SFmul prec emax fraction dblExp in
        Ok (if sign : bool then SFopp fraction else fraction, (length string - length p)%nat)
  end.
