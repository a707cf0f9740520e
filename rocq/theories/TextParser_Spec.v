(** The pattern language of TextParser for patterns made of texts, blanks and fields, and
    what it means for a text to match (documentation in base/text/textParser.h:200-330).
    A field takes the shortest text for which the rest matches if it stands for any
    characters; numbers, identifiers and character sets take as much as they can. *)
From Coq Require Import List ZArith Lia Bool Arith.
Import ListNotations.
Local Open Scope Z_scope.

Definition digit (c : Z) : bool := (48 <=? c) && (c <=? 57).
Definition letter (c : Z) : bool := (c =? 95) || ((97 <=? c) && (c <=? 122)) || ((65 <=? c) && (c <=? 90)).
Definition hexdigit (c : Z) : bool := digit c || ((65 <=? c) && (c <=? 70)) || ((97 <=? c) && (c <=? 102)).
Definition octdigit (c : Z) : bool := (48 <=? c) && (c <=? 55).
Definition blank (c : Z) : bool := (c =? 32) || (c =? 9).
Definition sign (c : Z) : bool := (c =? 43) || (c =? 45).
(** characters with a meaning in a pattern: percent, underscore, space, new line, tab, backspace *)
Definition special (c : Z) : bool :=
  (c =? 37) || (c =? 95) || (c =? 32) || (c =? 10) || (c =? 9) || (c =? 8).

(** value of a decimal number *)
Definition number (ds : list Z) : nat := fold_left (fun a c => a * 10 + Z.to_nat (c - 48))%nat ds 0%nat.

(** ** Patterns *)
(** member of a character set: a character or a range *)
Inductive member := One (a : Z) | Range (a b : Z).
(** what a field stands for: any characters; signed, unsigned, hexadecimal and octal numbers;
    identifiers; characters in a set or (set with ^) outside a set *)
Inductive kind := Any | Star | Signed | Unsigned | Hex | Oct | Ident | Set_ (l : list member) | NotIn (l : list Z).
(** length limits: none written (at least 1), (min,max), (min,star) *)
Inductive limits := NoLimits | MinMax (a b : list Z) | Min (a : list Z).
Inductive item :=
| Text (c : Z)                  (* a character, escaped by a percent sign if it is special *)
| Blanks                        (* any number of spaces and tabs *)
| Blanks1                       (* at least one *)
| Field (k : kind) (l : limits) (number : list Z) (closed : bool)
| Rest.                         (* percent sign at the end: anything may follow *)

Definition member_text (m : member) : list Z := match m with One a => [a] | Range a b => [a; 45; b] end.
Definition kind_text (k : kind) : list Z :=
  match k with
  | Any => [] | Star => [42] | Signed => [100] | Unsigned => [117] | Hex => [120] | Oct => [111] | Ident => [105]
  | Set_ l => [91] ++ concat (map member_text l) ++ [93]
  | NotIn l => [91; 94] ++ l ++ [93]
  end.
Definition limits_text (l : limits) : list Z :=
  match l with
  | NoLimits => [] | MinMax a b => [40] ++ a ++ [44] ++ b ++ [41] | Min a => [40] ++ a ++ [44; 42; 41]
  end.
Definition item_text (i : item) : list Z :=
  match i with
  | Text c => if special c then [37; c] else [c]
  | Blanks => [32] | Blanks1 => [95]
  | Field k l n closed => [37] ++ limits_text l ++ kind_text k ++ n ++ (if closed then [37] else [])
  | Rest => [37]
  end.
Definition pattern (is : list item) : list Z := concat (map item_text is).

(** well-formed patterns: numbers are digits; the end sign of a field may be missing only in
    front of something else than a digit or a percent sign; members of sets are no brackets,
    minus signs and other marks *)
Definition numeral (ds : list Z) : Prop := ds <> [] /\ Forall (fun c => digit c = true) ds.
Definition plain (a : Z) : Prop := ~ In a [93; 45; 42; 94; 92].
Definition wf_member (m : member) : Prop := match m with One a => plain a | Range a b => plain a /\ plain b end.
Definition wf_kind (k : kind) : Prop :=
  match k with
  | Set_ l => l <> [] /\ Forall wf_member l | NotIn l => l <> [] /\ Forall plain l | _ => True
  end.
Definition wf_limits (l : limits) : Prop :=
  match l with NoLimits => True | MinMax a b => numeral a /\ numeral b | Min a => numeral a end.
Fixpoint wf (is : list item) : Prop :=
  match is with
  | [] => True
  | Field k l n closed :: r =>
      wf_kind k /\ wf_limits l /\ numeral n /\
      (closed = false -> match pattern r with c :: _ => digit c = false /\ c <> 37 | [] => True end) /\ wf r
  | Rest :: r => r = []
  | _ :: r => wf r
  end.

(** ** Matching *)
Definition lo (l : limits) : nat := match l with NoLimits => 1 | MinMax a _ | Min a => number a end.
Definition hi (l : limits) : option nat := match l with MinMax _ b => Some (number b) | _ => None end.
Definition at_most (n : nat) (h : option nat) : Prop := match h with Some m => (n <= m)%nat | None => True end.

(** longest start of a text with characters of a kind, at most [h] of them, and the rest *)
Fixpoint munch (ok : Z -> bool) (h : option nat) (s : list Z) : list Z * list Z :=
  match s with
  | c :: t =>
      match h with
      | Some O => ([], s)
      | _ => if ok c then let (a, r) := munch ok (option_map pred h) t in (c :: a, r) else ([], s)
      end
  | [] => ([], [])
  end.
(** a number: sign if there may be one, at least one digit *)
Definition munch_number (signed : bool) (dig : Z -> bool) (h : option nat) (s : list Z) : option (list Z * list Z) :=
  let '(sg, s, h) := match s, h with
                     | c :: t, Some O => ([], s, h)
                     | c :: t, _ => if sign c && signed then ([c], t, option_map pred h) else ([], s, h)
                     | [], _ => ([], s, h)
                     end in
  match munch dig h s with
  | ([], _) => None
  | (a, r) => Some (sg ++ a, r)
  end.
Definition munch_ident (h : option nat) (s : list Z) : option (list Z * list Z) :=
  match s with
  | c :: _ => if letter c then
                match munch (fun c => letter c || digit c) h s with ([], _) => None | x => Some x end
              else None
  | [] => None
  end.
Definition in_member (c : Z) (m : member) : bool :=
  match m with One a => c =? a | Range a b => (a <=? c) && (c <=? b) end.
(** the text a field that does not search takes, and the rest *)
Definition take (k : kind) (h : option nat) (s : list Z) : option (list Z * list Z) :=
  match k with
  | Any | Star => None
  | Signed => munch_number true digit h s
  | Unsigned => munch_number false digit h s
  | Hex => munch_number true hexdigit h s
  | Oct => munch_number true octdigit h s
  | Ident => munch_ident h s
  | Set_ l => Some (munch (fun c => existsb (in_member c) l) h s)
  | NotIn l => Some (munch (fun c => negb (existsb (Z.eqb c) l)) h s)
  end.
Definition dropBlanks (s : list Z) : list Z := snd (munch blank None s).

(** [matches is s fs]: the pattern matches the text with these fields, in order *)
Inductive matches : list item -> list Z -> list (nat * list Z) -> Prop :=
| M_end : matches [] [] []
| M_text c is s fs : matches is s fs -> matches (Text c :: is) (c :: s) fs
| M_blanks is s fs : matches is (dropBlanks s) fs -> matches (Blanks :: is) s fs
| M_blanks1 is c s fs : blank c = true -> matches is (dropBlanks s) fs -> matches (Blanks1 :: is) (c :: s) fs
| M_rest s : matches [Rest] s []
| M_any k l n cl is t s fs :
    k = Any \/ k = Star -> (lo l <= length t)%nat -> at_most (length t) (hi l) -> matches is s fs ->
    matches (Field k l n cl :: is) (t ++ s) ((number n, t) :: fs)
| M_take k l n cl is s0 t s fs :
    take k (hi l) s0 = Some (t, s) -> (lo l <= length t)%nat -> matches is s fs ->
    matches (Field k l n cl :: is) s0 ((number n, t) :: fs).

(** of two matches of the same pattern and text the parser takes the first one: the one with
    the shorter field where they differ first *)
Fixpoint sooner (f g : list (nat * list Z)) : Prop :=
  match f, g with
  | (_, t) :: f, (_, u) :: g => (length t < length u)%nat \/ (t = u /\ sooner f g)
  | [], [] => True
  | _, _ => False
  end.

(** text of field [n]: the last one with that number *)
Definition last_field (fs : list (nat * list Z)) (n : nat) : option (list Z) :=
  fold_left (fun a f => if (fst f =? n)%nat then Some (snd f) else a) fs None.

(** numbers of the fields of a pattern *)
Definition ids (is : list item) : list nat :=
  concat (map (fun i => match i with Field _ _ n _ => [number n] | _ => [] end) is).

(** executable form, used in the proofs: the first match *)
Fixpoint first_some {A} (f : nat -> option A) (n k : nat) : option A :=
  match k with O => None | S k => match f n with Some x => Some x | None => first_some f (S n) k end end.
Fixpoint smatch (is : list item) (s : list Z) : option (list (nat * list Z)) :=
  match is with
  | [] => match s with [] => Some [] | _ => None end
  | Text c :: r => match s with d :: t => if d =? c then smatch r t else None | [] => None end
  | Blanks :: r => smatch r (dropBlanks s)
  | Blanks1 :: r => match s with c :: t => if blank c then smatch r (dropBlanks t) else None | [] => None end
  | Rest :: _ => Some []
  | Field k l n _ :: r =>
      match k with
      | Any | Star =>
          let max := match hi l with Some m => Nat.min m (length s) | None => length s end in
          first_some (fun i => match smatch r (skipn i s) with
                               | Some fs => Some ((number n, firstn i s) :: fs) | None => None end)
                     (lo l) (S max - lo l)
      | _ =>
          match take k (hi l) s with
          | Some (t, s') => if (lo l <=? length t)%nat
                            then match smatch r s' with Some fs => Some ((number n, t) :: fs) | None => None end
                            else None
          | None => None
          end
      end
  end.

(** ** Quoted texts: a quote sign or an escape sign inside is written with an escape sign in
    front (if the two are the same sign, this doubles it) *)
Definition quoteBody (q e : Z) (t : list Z) : list Z :=
  concat (map (fun c => if (c =? q) || (c =? e) then [e; c] else [c]) t).
Definition quoted (q e : Z) (t : list Z) : list Z := [q] ++ quoteBody q e t ++ [q].

(** value of a decimal numeral *)
Definition decimal (ds : list Z) : Z := fold_left (fun a c => a * 10 + (c - 48)) ds 0.
