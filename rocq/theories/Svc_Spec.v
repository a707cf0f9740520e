(** What a user expects of the registry of services: independent of the code. *)
From Verif Require Import Common.

(** interfaces (types) and objects are numbers; None is the null pointer *)
Inductive op :=
| Add (t : nat) (o : option nat)
| Rem (t : nat)
| RemObj (t : nat) (o : option nat)
| AddAll (o : nat) (ts : list nat)   (* an object that lists its interfaces *)
| RemAll (o : nat) (ts : list nat).

(** the registrations that are in force, in the order of time, the newest first *)
Definition regs := list (nat * nat).

(** the newest registration that satisfies [p] is removed *)
Fixpoint drop1 (p : nat * nat -> bool) (r : regs) : regs :=
  match r with
  | [] => []
  | x :: r' => if p x then r' else x :: drop1 p r'
  end.
Definition isT (t : nat) (x : nat * nat) : bool := fst x =? t.
Definition isTO (t o : nat) (x : nat * nat) : bool := (fst x =? t) && (snd x =? o).

(** iservices.h:41-77, the documentation *)
Definition regs1 (r : regs) (a : op) : regs :=
  match a with
  | Add t (Some o) => (t, o) :: r
  | Add t None | Rem t | RemObj t None => drop1 (isT t) r
  | RemObj t (Some o) => drop1 (isTO t o) r
  | AddAll o ts => fold_left (fun r t => (t, o) :: r) ts r
  | RemAll o ts => fold_left (fun r t => drop1 (isTO t o) r) ts r
  end.
Definition regsOf (l : list op) : regs := fold_left regs1 l [].

(** the active object of an interface: the one registered last *)
Definition active (r : regs) (t : nat) : option nat := option_map snd (find (isT t) r).

(** histories in which no object is removed by its pointer *)
Definition noPtr (a : op) : bool :=
  match a with RemObj _ (Some _) | RemAll _ (_ :: _) => false | _ => true end.
