(** Model of integer formatting, src/lightspeed/base/text/toString.h, and parsing,
    src/lightspeed/base/text/textParser.tcc.  Characters are numbers; [natural] and
    [integer] are the 64 bit types. *)
From Coq Require Import ZArith.
From Verif Require Import Common Rational_Model.
Local Open Scope Z_scope.

(** toString.h:71-73 *)
Definition digitChar (up : bool) (x : Z) : Z :=
  if 9 <? x then (if up then 65 else 97) + x - 10 else 48 + x.

(** toString.h:69-74 and 94-99 (the two are the same on non-negative numbers); the buffer
    is a growing array, modelled by the list of characters written *)
Fixpoint extract (fuel : nat) (val base : Z) (up : bool) : outcome (list Z) :=
  let last := [digitChar up (val mod base)] in
  if base <=? val then
    match fuel with
    | O => NoFuel
    | S f => let! first := extract f (val / base) base up in Ok (first ++ last)
    end
  else Ok last.

(** toString.h:64-68 *)
Definition formatU (val base : Z) (up : bool) : outcome (list Z) :=
  if val =? 0 then Ok [48] else extract 64 val base up.

(** toString.h:82-93; negating the smallest number is undefined *)
Definition formatS (val base : Z) (up : bool) : outcome (list Z) :=
  if val =? 0 then Ok [48]
  else if val <? 0 then
    let! m := signed (- val) in
    let! t := extract 64 m base up in Ok (45 :: t)
  else extract 64 val base up.

(** textParser.tcc:560-563 *)
Definition digitVal (c : Z) : option Z :=
  if (48 <=? c) && (c <=? 57) then Some (c - 48)
  else if (65 <=? c) && (c <=? 90) then Some (c - 65 + 10)
  else if (97 <=? c) && (c <=? 122) then Some (c - 97 + 10)
  else None.

(** textParser.tcc:557-569: the loop; [wrap] is the conversion of the unsigned product and
    sum to the type of the number.  The result is the flag, the number and the rest. *)
Fixpoint parseLoop (wrap : Z -> Z) (base number : Z) (okaj : bool) (s : list Z) : bool * Z * list Z :=
  match s with
  | [] => (okaj, number, [])
  | c :: t =>
      match digitVal c with
      | None => (okaj, number, s)
      | Some a =>
          if base <=? a then (okaj, number, s)
          else parseLoop wrap base (wrap (number * base + a)) true t
      end
  end.

(** textParser.tcc:553-570 *)
Definition parseU (wrap : Z -> Z) (base : Z) (s : list Z) : bool * Z * list Z := parseLoop wrap base 0 false s.

(** textParser.tcc:577-596, at type integer; when the flag is false the number is left
    unspecified here *)
Definition parseS (base : Z) (s : list Z) : outcome (bool * Z * list Z) :=
  match s with
  | [] => Ok (false, 0, [])
  | c :: t =>
      if c =? 43 then Ok (parseU s64 base t)
      else if c =? 45 then
        let '(ok, n, rest) := parseU s64 base t in
        if ok then let! m := signed (- n) in Ok (true, m, rest) else Ok (false, n, rest)
      else Ok (parseU s64 base s)
  end.
