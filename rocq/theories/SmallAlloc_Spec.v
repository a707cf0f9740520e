(** What two arrays should be: two lists.  An operation that throws changes nothing. *)
From Verif Require Import Common.
From Coq Require Import ZArith.
Inductive sop := SAdd (second : bool) (x : Z) | SNone | STrunc (second : bool) (n : nat) | SSwap.
Definition sexec (o : sop) (p : list Z * list Z) : list Z * list Z :=
  let (a, b) := p in
  match o with
  | SAdd second x => if second then (a, b ++ [x]) else (a ++ [x], b)
  | SNone => (a, b)
  | STrunc second n => if second then (a, firstn (length b - n) b) else (firstn (length a - n) a, b)
  | SSwap => (b, a)
  end.
(** [l]: operations, and whether each threw *)
Fixpoint srun (l : list (sop * bool)) (p : list Z * list Z) : list Z * list Z :=
  match l with [] => p | (o, thrown) :: t => srun t (if thrown then p else sexec o p) end.
