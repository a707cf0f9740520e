(** Specification of an ordered set of keys: a sequence in ascending order.
    Keys are equal when neither goes before the other. *)
From Verif Require Import Common.

Section Spec.
Context {K : Type}.
Variable lt : K -> K -> bool.

Definition sameKey (a b : K) : bool := negb (lt a b) && negb (lt b a).

(** put a new key to its place *)
Fixpoint enter (k : K) (l : list K) : list K :=
  match l with
  | [] => [k]
  | x :: l' => if lt k x then k :: l else x :: enter k l'
  end.

Definition member (k : K) (l : list K) : bool := existsb (fun x => sameKey x k) l.

(** the operations of a set and their answers *)
Inductive setop :=
| SAdd (k : K)                 (* tells whether the key was added *)
| SFind (k : K)                (* the equal key that is in the set *)
| SSize
| SItem (rank : Z)             (* the key with the given rank, the first or the last for a rank out of range *)
| SRankOf (k : K)              (* the number of smaller keys *)
| SAll                         (* all keys in the order of an iteration *)
| SFrom (k : K)                (* the keys an iteration visits that starts at the key *)
| SClear.

Inductive setans :=
| SFlag (b : bool)
| SKey (k : option K)
| SNum (z : Z)
| SKeys (l : list K)
| SDone.

Definition clampRank (r : Z) (n : nat) : nat := Z.to_nat (Z.min (Z.max r 0) (Z.of_nat n - 1)).

Definition setSpec (o : setop) (l : list K) : list K * setans :=
  match o with
  | SAdd k => if member k l then (l, SFlag false) else (enter k l, SFlag true)
  | SFind k => (l, SKey (List.find (fun x => sameKey x k) l))
  | SSize => (l, SNum (Z.of_nat (length l)))
  | SItem r => (l, SKey (nth_error l (clampRank r (length l))))
  | SRankOf k => (l, SNum (Z.of_nat (length (filter (fun x => lt x k) l))))
  | SAll => (l, SKeys l)
  | SFrom k => (l, SKeys (filter (fun x => negb (lt x k)) l))
  | SClear => ([], SDone)
  end.

Fixpoint setRun (os : list setop) (l : list K) : list K * list setans :=
  match os with
  | [] => (l, [])
  | o :: os' =>
      let (l1, a) := setSpec o l in
      let (l2, r) := setRun os' l1 in (l2, a :: r)
  end.

(** the histories that never add a key the set has, and never start an
    iteration at a key the set has; at most [limit] keys at any time *)
Fixpoint freshOps (limit : N) (os : list setop) (l : list K) : Prop :=
  match os with
  | [] => True
  | o :: os' =>
      match o with
      | SAdd k => member k l = false /\ (N.of_nat (length l) < limit)%N
      | SFrom k => member k l = false
      | _ => True
      end /\ freshOps limit os' (fst (setSpec o l))
  end.
End Spec.
