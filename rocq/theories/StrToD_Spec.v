(** Decimal numerals and what reading them should give. *)
From Coq Require Import SpecFloat.
From Verif Require Import Common.
Open Scope Z_scope.

(** blanks, sign, digits, digits behind a point, exponent; digits are 0 to 9, texts are lists of character codes *)
Record numeral := mkN { blanks : list Z; sgn : option bool (** true: minus *); ints : list Z; fracs : option (list Z); expo : option (bool (** capital E *) * option bool * list Z) }.
Definition dig (d : Z) : Z := 48 + d.
Definition sign_text (s : option bool) : list Z := match s with None => [] | Some true => [45] | Some false => [43] end.
Definition text (n : numeral) : list Z :=
  blanks n ++ sign_text (sgn n) ++ map dig (ints n) ++ match fracs n with None => [] | Some f => 46 :: map dig f end
  ++ match expo n with None => [] | Some (c, s, d) => (if c : bool then 69 else 101) :: sign_text s ++ map dig d end.
Definition digits (n : numeral) : list Z := ints n ++ match fracs n with None => [] | Some f => f end.
Definition is_blank (c : Z) : Prop := c = 32 \/ 9 <= c <= 13.
Definition is_dig (d : Z) : Prop := 0 <= d <= 9.
Definition wf (n : numeral) : Prop :=
  Forall is_blank (blanks n) /\ Forall is_dig (digits n) /\ digits n <> [] /\ match expo n with None => True | Some (_, _, d) => d <> [] /\ Forall is_dig d end.
(** the number written by digits; the value of the numeral is [mant n * 10 ^ tens n], negative if [negative n] *)
Definition num (l : list Z) : Z := fold_left (fun a d => 10 * a + d) l 0.
Definition mant (n : numeral) : Z := num (digits n).
Definition exp_of (n : numeral) : Z := match expo n with None => 0 | Some (_, s, d) => match s with Some true => - num d | _ => num d end end.
Definition tens (n : numeral) : Z := exp_of n - Z.of_nat (length (match fracs n with None => [] | Some f => f end)).
Definition negative (n : numeral) : bool := match sgn n with Some true => true | _ => false end.
(** the numeral is not continued by what follows *)
Definition ends (n : numeral) (rest : list Z) : Prop :=
  match rest with
  | [] => True
  | c :: _ => ~ (48 <= c <= 57) /\ (expo n = None -> c <> 69 /\ c <> 101 /\ (fracs n = None -> c <> 46))
  end.
(** the double [f] is exactly the integer [z] *)
Definition is_int (f : spec_float) (z : Z) : Prop :=
  match f with
  | S754_zero _ => z = 0
  | S754_finite s m e => (if s then - Zpos m else Zpos m) * 2 ^ Z.max 0 e = z * 2 ^ Z.max 0 (- e)
  | _ => False
  end.
(** the double [f] is, but for the sign [neg], [m * 10 ^ t] rounded to 53 bits: the error is at most half a unit of its last place *)
Definition nearest (f : spec_float) (neg : bool) (m t : Z) : Prop :=
  match f with
  | S754_finite s a e =>
      s = neg /\ 2 ^ 52 <= Zpos a < 2 ^ 53 /\
      2 * Z.abs (Zpos a * 2 ^ Z.max 0 e * 10 ^ Z.max 0 (- t) - m * 10 ^ Z.max 0 t * 2 ^ Z.max 0 (- e)) <= 2 ^ Z.max 0 e * 10 ^ Z.max 0 (- t)
  | _ => False
  end.
