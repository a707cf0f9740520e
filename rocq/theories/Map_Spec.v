(** Specification of an ordered map: a finite map is a list of entries in no
    particular order; keys are equal when neither goes before the other. *)
From Verif Require Import Common.

(** what the library expects of a compare operator (std::less) *)
Record strict_weak {K} (lt : K -> K -> bool) : Prop := {
  sw_irrefl : forall x, lt x x = false;
  sw_trans : forall x y z, lt x y = true -> lt y z = true -> lt x z = true;
  sw_cotrans : forall x y z, lt x y = true -> lt x z = true \/ lt z y = true
}.

Section Spec.
Context {K V : Type}.
Variable lt : K -> K -> bool.

Definition eqk (a b : K) : bool := negb (lt a b) && negb (lt b a).

Definition fmap := list (K * V).

Definition lookup (k : K) (m : fmap) : option V :=
  option_map snd (List.find (fun e => eqk (fst e) k) m).

Definition known (k : K) (m : fmap) : bool := existsb (fun e => eqk (fst e) k) m.

(** set the value of an existing key; the key itself is kept *)
Definition put (k : K) (v : V) (m : fmap) : fmap :=
  map (fun e => if eqk (fst e) k then (fst e, v) else e) m.

Definition del (k : K) (m : fmap) : fmap := filter (fun e => negb (eqk (fst e) k)) m.

(** directions: false is ascending, true is descending *)
Definition before (d : bool) (a b : K) : bool := if d then lt b a else lt a b.

(** the entries ordered by their keys (insertion sort) *)
Fixpoint place (d : bool) (e : K * V) (l : fmap) : fmap :=
  match l with
  | [] => [e]
  | f :: l' => if before d (fst e) (fst f) then e :: l else f :: place d e l'
  end.

Fixpoint ordered (d : bool) (m : fmap) : fmap :=
  match m with
  | [] => []
  | e :: m' => place d e (ordered d m')
  end.

(** the entries a walk visits that starts at the key *)
Definition fromKey (d : bool) (k : K) (m : fmap) : fmap :=
  ordered d (filter (fun e => negb (before d (fst e) k)) m).

(** operations of a map and their answers *)
Inductive mop :=
| MInsert (k : K) (v : V)          (* insert, tells whether the key existed *)
| MReplace (k : K) (v : V)         (* replace *)
| MErase (k : K)                   (* erase by key, tells whether it was there *)
| MFind (k : K)                    (* find *)
| MAt (k : K)                      (* operator[], throws on an unknown key *)
| MTouch (k : K) (v : V)           (* operator() with a default value: reading *)
| MSet (k : K) (v0 v : V)          (* operator() with a default value: assigning v *)
| MSize | MEmpty | MClear
| MWalk (d : bool)                 (* all entries by an iterator *)
| MSeek (k : K) (d : bool)         (* found flag of seek and the walk from there *)
| MEraseAt (k : K) (d : bool).     (* seek, erase by iterator, walk on *)

Inductive manswer :=
| AFlag (b : bool)
| AValue (v : option V)
| AThrown
| ANumber (n : nat)
| AEntries (b : bool) (l : fmap)
| ANone.

Definition mspec (o : mop) (m : fmap) : fmap * manswer :=
  match o with
  | MInsert k v => if known k m then (m, AFlag true) else ((k, v) :: m, AFlag false)
  | MReplace k v => (if known k m then put k v m else (k, v) :: m, AValue (Some v))
  | MErase k => (del k m, AFlag (known k m))
  | MFind k => (m, AValue (lookup k m))
  | MAt k => (m, match lookup k m with Some v => AValue (Some v) | None => AThrown end)
  | MTouch k v =>
      if known k m then (m, AValue (lookup k m)) else ((k, v) :: m, AValue (Some v))
  | MSet k v0 v => (if known k m then put k v m else (k, v) :: m, ANone)
  | MSize => (m, ANumber (length m))
  | MEmpty => (m, AFlag (match m with [] => true | _ => false end))
  | MClear => ([], ANone)
  | MWalk d => (m, AEntries true (ordered d m))
  | MSeek k d => (m, AEntries (known k m) (fromKey d k m))
  | MEraseAt k d =>
      match fromKey d k m with
      | [] => (m, AThrown)
      | e :: rest => (del (fst e) m, AEntries true rest)
      end
  end.

Fixpoint mspecs (os : list mop) (m : fmap) : fmap * list manswer :=
  match os with
  | [] => (m, [])
  | o :: os' =>
      let (m, a) := mspec o m in
      let (m, l) := mspecs os' m in
      (m, a :: l)
  end.

(** the largest number of entries the map holds during a history *)
Fixpoint mostEntries (os : list mop) (m : fmap) : nat :=
  match os with
  | [] => length m
  | o :: os' => Nat.max (length m) (mostEntries os' (fst (mspec o m)))
  end.

(** the entries of both maps; the first one wins *)
Definition union (m1 m2 : fmap) : fmap :=
  m1 ++ filter (fun e => negb (known (fst e) m1)) m2.

(** the entries of the first map whose keys are not in the second one *)
Definition minus (m1 m2 : fmap) : fmap :=
  filter (fun e => negb (known (fst e) m2)) m1.

(** the same keys *)
Definition sameKeys (m1 m2 : fmap) : Prop := forall k, known k m1 = known k m2.

(** calling a function for the entries one after another until it says stop *)
Fixpoint visit {A S} (fn : A -> S -> S * bool) (l : list A) (s : S) : S * bool :=
  match l with
  | [] => (s, false)
  | x :: l' => let '(s, stop) := fn x s in if stop then (s, true) else visit fn l' s
  end.
End Spec.
Arguments mop K V : clear implicits.
Arguments manswer K V : clear implicits.

(** the least number of entries of a balanced tree of a height plus one is a
    Fibonacci number *)
Fixpoint fib (n : nat) : N :=
  match n with
  | O => 1%N
  | S m => match m with O => 1%N | S k => (fib m + fib k)%N end
  end.
