(** Searching, comparing, splitting and visiting lists, independent of the code. *)
From Verif Require Import Common.

(** arrays made from others: [Flat l s n] is the part of the memory [l] with [n] items from
    position [s], [Mid] a part of another array expression *)
Inductive aexp {T : Type} : Type :=
| Flat (l : list T) (s n : nat)
| Sum (a b : aexp)
| Mid (a : aexp) (s n : nat)
| Rev (a : aexp)
| Rep (a : aexp) (n : nat).
Arguments aexp : clear implicits.

(** an array as such *)
Definition whole {T : Type} (l : list T) : aexp T := Flat l 0 (length l).

(** the items an expression stands for *)
Fixpoint items {T : Type} (a : aexp T) : list T :=
  match a with
  | Flat l s n => firstn n (skipn s l)
  | Sum a b => items a ++ items b
  | Mid a s n => firstn n (skipn s (items a))
  | Rev a => rev (items a)
  | Rep a n => concat (repeat (items a) n)
  end.

(** every part lies inside of what it is a part of *)
Fixpoint sound {T : Type} (a : aexp T) : Prop :=
  match a with
  | Flat l s n => s + n <= length l
  | Sum a b => sound a /\ sound b
  | Mid a s n => sound a /\ s + n <= length (items a)
  | Rev a | Rep a _ => sound a
  end.

(** concatenations appear only where they are visited from their beginning, and nothing empty
    is repeated *)
Fixpoint straight {T : Type} (a : aexp T) : Prop :=
  match a with
  | Flat _ _ _ | Rev _ => True
  | Sum _ _ => False
  | Mid a _ _ => straight a
  | Rep a _ => straight a /\ items a <> []
  end.
Fixpoint easy {T : Type} (a : aexp T) : Prop :=
  match a with
  | Flat _ _ _ | Rev _ => True
  | Sum a b => easy a /\ easy b
  | Mid a s _ => straight a \/ (s = 0 /\ easy a)
  | Rep a _ => easy a /\ items a <> []
  end.

(** no part of a concatenation, reversed or repeated array *)
Fixpoint noPart {T : Type} (a : aexp T) : Prop :=
  match a with
  | Flat _ _ _ | Rev _ | Rep _ _ => True
  | Sum a b => noPart a /\ noPart b
  | Mid _ _ _ => False
  end.
Definition isFlat {T : Type} (a : aexp T) : Prop := match a with Flat _ _ _ => True | _ => False end.

(** the items in order, handed to a function with a state until it answers [true] *)
Fixpoint visit {T S : Type} (f : S -> T -> bool * S) (l : list T) (s : S) : bool * S :=
  match l with
  | [] => (false, s)
  | x :: r => let (stop, s1) := f s x in if stop then (true, s1) else visit f r s1
  end.

(** the first and the last position whose item has the property; [None]: there is none *)
Definition first_such {T : Type} (p : T -> Prop) (l : list T) (r : option nat) : Prop :=
  match r with
  | None => Forall (fun x => ~ p x) l
  | Some i => exists q x t, l = q ++ x :: t /\ length q = i /\ p x /\ Forall (fun y => ~ p y) q
  end.
Definition last_such {T : Type} (p : T -> Prop) (l : list T) (r : option nat) : Prop :=
  match r with
  | None => Forall (fun x => ~ p x) l
  | Some i => exists q x t, l = q ++ x :: t /\ length q = i /\ p x /\ Forall (fun y => ~ p y) t
  end.

(** [pat] stands at position [i] of [l] *)
Definition stands {T : Type} (pat l : list T) (i : nat) : Prop :=
  exists q t, l = q ++ pat ++ t /\ length q = i.

(** lexicographic order of lists for an order of the items *)
Fixpoint lex {T : Type} (cmp : T -> T -> comparison) (a b : list T) : comparison :=
  match a, b with
  | [], [] => Eq
  | [], _ :: _ => Lt
  | _ :: _, [] => Gt
  | x :: r, y :: t => match cmp x y with Eq => lex cmp r t | c => c end
  end.

(** the parts with the separator between each two of them *)
Fixpoint join {T : Type} (sep : T) (parts : list (list T)) : list T :=
  match parts with
  | [] => []
  | [p] => p
  | p :: r => p ++ sep :: join sep r
  end.
