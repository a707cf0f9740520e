(** What a user expects of thread hooks: independent of the code. *)
From Verif Require Import Common.

(** a hook is an object with an address *)
Inductive op := New (h : nat) | Install (h : nat) | Uninstall (h : nat) | Delete (h : nat).

(** the objects that exist *)
Definition alive1 (a : nat -> bool) (o : op) : nat -> bool :=
  match o with
  | New h => fun x => if x =? h then true else a x
  | Delete h => fun x => if x =? h then false else a x
  | _ => a
  end.
(** objects are made once and not used when they do not exist *)
Fixpoint valid (a : nat -> bool) (l : list op) : Prop :=
  match l with
  | [] => True
  | o :: l' => match o with New h => a h = false | Install h | Uninstall h | Delete h => a h = true end /\ valid (alive1 a o) l'
  end.

(** the installed hooks, the newest one first *)
Definition without (h : nat) (l : list nat) : list nat := filter (fun x => negb (x =? h)) l.
Definition hooks1 (l : list nat) (o : op) : list nat :=
  match o with
  | New _ => l
  | Install h => if existsb (Nat.eqb h) l then l else h :: l
  | Uninstall h | Delete h => without h l
  end.
Definition hooks (l : list op) : list nat := fold_left hooks1 l [].

(** what a thread does with hooks: the handlers that are called, and its own function *)
Inductive event := EInit (h : nat) | EExit (h : nat) | EExc (h : nat) | EFn.

(** threadHook.h:55-57, the documentation of onThreadInit: the hooks are called in the
    order of their installation ([older] is the oldest first); when one throws, it
    ends there and the ones already initialised are told *)
Fixpoint docInit (throws : nat -> bool) (done todo : list nat) : list event :=
  match todo with
  | [] => []
  | h :: todo' => EInit h :: if throws h then map EExc done else docInit throws (h :: done) todo'
  end.
