(** The message patterns of the text formatter as a small language, written from the
    documentation of the class; nothing here mentions the code.  Texts are lists of
    character codes. *)
From Coq Require Import ZArith.
From Verif Require Import Common.
Local Open Scope Z_scope.

Definition text := list Z.

(** ** Numbers written in a pattern *)
Definition is_digit (c : Z) : Prop := 48 <= c <= 57.

(** the value of a string of decimal digits *)
Definition decimal (ds : text) : Z := fold_left (fun v c => v * 10 + (c - 48)) ds 0.

(** ** Pieces of a pattern *)

(** [{sfWa}]: sign (true for +, false for -), fill character, digits of the width, fill
    character behind the width *)
Record field := mkField { f_sign : option bool; f_fill : option Z; f_width : text; f_after : option Z }.

Inductive piece :=
| Plain (c : Z)                                     (* an ordinary character *)
| NewLine                                           (* a line feed *)
| Percent                                           (* %% *)
| RawNewLine                                        (* % and a line feed *)
| LonePercent                                       (* % at the very end *)
| Stray                                             (* % before any other character *)
| Param (idx : text) (closed : bool)                (* %N or %N% *)
| Field (f : field) (idx : text) (closed : bool).   (* %{...}N or %{...}N% *)

Definition opt (o : option Z) : text := match o with Some c => [c] | None => [] end.
Definition close (b : bool) : text := if b then [37] else [].

Definition write_field (f : field) : text :=
  123 :: match f_sign f with Some true => [43] | Some false => [45] | None => [] end
      ++ opt (f_fill f) ++ f_width f ++ opt (f_after f) ++ [125].

Definition write_piece (p : piece) : text :=
  match p with
  | Plain c => [c]
  | NewLine => [10]
  | Percent => [37; 37]
  | RawNewLine => [37; 10]
  | LonePercent => [37]
  | Stray => [37]
  | Param idx closed => 37 :: idx ++ close closed
  | Field f idx closed => 37 :: write_field f ++ idx ++ close closed
  end.

Fixpoint write (ps : list piece) : text :=
  match ps with [] => [] | p :: r => write_piece p ++ write r end.

(** numbers in patterns fit the machine *)
Definition number_ok (ds : text) : Prop := ds <> [] /\ Forall is_digit ds /\ decimal ds < 2 ^ 64.

Definition field_ok (f : field) : Prop :=
  Forall is_digit (f_width f) /\ decimal (f_width f) < 2 ^ 64 /\
  match f_fill f with
  | None => match f_width f with c :: _ => 49 <= c <= 57 | [] => False end
  | Some c => ~ 49 <= c <= 57 /\ (f_sign f = None -> c <> 43 /\ c <> 45)
  end /\
  match f_after f with Some c => ~ is_digit c /\ c <> 125 | None => True end.

(** what may follow: a number ends where the digits end, and the percent sign behind a
    number belongs to it *)
Definition ends_number (rest : text) : Prop :=
  match rest with c :: _ => ~ is_digit c /\ c <> 37 | [] => True end.

Definition piece_ok (p : piece) (rest : text) : Prop :=
  match p with
  | Plain c => c <> 37 /\ c <> 10
  | NewLine | Percent | RawNewLine => True
  | LonePercent => rest = []
  | Stray => match rest with c :: _ => ~ is_digit c /\ c <> 37 /\ c <> 10 /\ c <> 123 | [] => False end
  | Param idx closed => number_ok idx /\ (closed = false -> ends_number rest)
  | Field f idx closed => field_ok f /\ number_ok idx /\ (closed = false -> ends_number rest)
  end.

Fixpoint pieces_ok (ps : list piece) : Prop :=
  match ps with [] => True | p :: r => piece_ok p (write r) /\ pieces_ok r end.

(** ** What a pattern shows *)

(** argument number [idx], counted from 1; an argument that is not there shows nothing *)
Definition argument (args : list text) (idx : Z) : text :=
  if idx <=? 0 then [] else nth (Z.to_nat (idx - 1)) args [].

(** the sign of the text, and what is behind the sign; the sign is set apart when it is
    minus, or when a sign is asked for, and then a missing sign is plus *)
Definition split_sign (forced : bool) (t : text) : text * text :=
  match t with
  | c :: r => if (c =? 45) || (forced && (c =? 43)) then ([c], r)
              else if forced then ([43], t) else ([], t)
  | [] => if forced then ([43], []) else ([], [])
  end.

Definition is_some {A} (o : option A) : bool := match o with Some _ => true | None => false end.

Definition show_field (f : field) (t : text) : text :=
  let forced := match f_sign f with Some true => true | _ => false end in
  let '(sign, body) := split_sign forced t in
  let fillchar := match f_after f, f_fill f with Some c, _ => c | None, Some c => c | None, None => 32 end in
  let fill := repeat fillchar (Z.to_nat (decimal (f_width f)) - (length sign + length body)) in
  if is_some (f_sign f) && is_some (f_fill f) then sign ++ fill ++ body
  else if is_some (f_sign f) || is_some (f_fill f) then fill ++ sign ++ body
  else sign ++ body ++ fill.

Definition show_piece (nl : text) (args : list text) (p : piece) : text :=
  match p with
  | Plain c => [c]
  | NewLine => nl
  | Percent => [37]
  | RawNewLine => [10]
  | LonePercent => [37]
  | Stray => []
  | Param idx _ => argument args (decimal idx)
  | Field f idx _ => show_field f (argument args (decimal idx))
  end.

Definition show (nl : text) (args : list text) (ps : list piece) : text :=
  concat (map (show_piece nl args) ps).

(** ** The text of an integer *)

(** digits 0-9, then A-Z, then a-z *)
Definition digit62 (d c : Z) : Prop :=
  (0 <= d <= 9 /\ c = 48 + d) \/ (10 <= d <= 35 /\ c = 65 + (d - 10)) \/ (36 <= d <= 61 /\ c = 97 + (d - 36)).

(** the text is the numeral of a non-negative number *)
Inductive numeral62 (b : Z) : text -> Z -> Prop :=
| numeral62_one d c : digit62 d c -> d < b -> numeral62 b [c] d
| numeral62_more s v d c : numeral62 b s v -> 0 < v -> digit62 d c -> d < b -> numeral62 b (s ++ [c]) (v * b + d).

Definition number_text (b v : Z) (t : text) : Prop :=
  if v <? 0 then exists s, t = 45 :: s /\ numeral62 b s (- v) else numeral62 b t v.
