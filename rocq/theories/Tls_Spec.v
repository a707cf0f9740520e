(** What a user expects of thread variables: independent of the code. *)
From Verif Require Import Common.
From Coq Require Import Permutation.

(** A thread variable is known by its index.  A value is a pointer, 0 is NULL.
    [d] tells whether a delete function is registered with the pointer. *)
Inductive op :=
| Set_ (i v : nat) (d : bool)       (* ThreadVar::set, setValue, ThreadVarInit::init *)
| Raw (i v : nat) (d : bool)        (* ITLSTable::setVar *)
| Unset (i : nat)                   (* ThreadVar::unset *)
| Clear.                            (* ITLSTable::clear *)

(** the variables of one thread whose delete functions do not touch variables *)
Definition vars : Type := nat -> nat.
Definition noVars : vars := fun _ => 0.
Definition apply1 (m : vars) (o : op) : vars :=
  match o with
  | Set_ i v _ | Raw i v _ => fun j => if j =? i then v else m j
  | Unset i => fun j => if j =? i then 0 else m j
  | Clear => noVars
  end.
Definition applyAll (m : vars) (l : list op) : vars := fold_left apply1 l m.

(** What the delete function of a value does with thread variables of the same
    thread is [react v].  It is [tame] when it only unsets variables and sets
    values whose own delete functions do nothing. *)
Definition tame (react : nat -> list op) : Prop :=
  forall v, Forall (fun o => match o with
                             | Set_ _ w d => d = false \/ react w = []
                             | Unset _ => True
                             | _ => False
                             end) (react v).

Definition notRaw (o : op) : Prop := match o with Raw _ _ _ => False | _ => True end.

(** all variables have an index below [n] *)
Definition below (n : nat) (o : op) : Prop :=
  match o with Set_ i _ _ | Raw i _ _ | Unset i => i < n | Clear => True end.

(** the client of the index allocator: declares a new variable, or destroys the
    k-th of the variables it has *)
Inductive aop := Declare_ | Destroy (k : nat).
