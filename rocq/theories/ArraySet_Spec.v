(** What a set kept in an array should be. *)
From Coq Require Import Sorting.Permutation Sorting.Sorted.
From Verif Require Import Common.
Section Spec.
  Context {A : Type} (less : A -> A -> bool).
  (** what C++ demands of a comparison: a strict weak ordering *)
  Definition strict_weak : Prop :=
    (forall a b, less a b = true -> less b a = false) /\ (forall a b c, less b a = false -> less c b = false -> less c a = false).
  Definition same (a b : A) : Prop := less a b = false /\ less b a = false.
  Definition ascending (l : list A) : Prop := StronglySorted (fun a b => less b a = false) l.
  (** no two equal items *)
  Definition distinct (l : list A) : Prop := forall i j a b, i < j -> nth_error l i = Some a -> nth_error l j = Some b -> ~ same a b.
End Spec.
