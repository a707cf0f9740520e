(** What a user expects of Optional<T>: it is an option, objects are made and destroyed in pairs. Nothing here mentions the model. *)
From Coq Require Import List Arith.
Import ListNotations.

(** a value: a chain of numbers, its tail is a part of the same type (a member reached by a reference) *)
Definition val := list nat.
(** what an assignment or a construction takes its value from: a value outside, a reference to the value of an Optional, a reference to a part of it *)
Inductive src := SVal (v : val) | SValOf (p : nat) | SPartOf (p : nat).
(** [t]: the constructor of T throws this time *)
Inductive op :=
  | ONew (o : nat)                                 (* Optional<T> o; or o(nil) *)
  | ONewVal (o : nat) (x : src) (t : bool)         (* Optional<T> o(x) *)
  | ONewC (o : nat) (x : src) (t : bool)           (* Optional<T> o(constructor from x) *)
  | ONewCopy (o p : nat) (t : bool)                (* Optional<T> o(p) *)
  | ONewMove (o p : nat) (t : bool)                (* Optional<T> o(std::move(p)) *)
  | ODel (o : nat)
  | ONil (o : nat)                                 (* o = nil *)
  | OSet (o : nat) (x : src) (t : bool)            (* o = x *)
  | OSetC (o : nat) (x : src) (t : bool)           (* o = constructor from x *)
  | OCopy (o p : nat) (t : bool)                   (* o = p *)
  | OValue (o : nat)
  | OIsNil (o : nat).
(** REx: the exception of the constructor; RNull: NullPointerException; RBad: not a C++ program (no such variable, or one of the name is there) *)
Inductive res := RUnit | RVal (v : val) | RBool (b : bool) | REx | RNull | RBad.

(** the variables: None not there, Some None nil, Some (Some v) holds v *)
Definition vars := nat -> option (option val).
Definition aput (a : vars) (o : nat) (x : option (option val)) : vars := fun q => if Nat.eqb q o then x else a q.
(** the value a source has, or the answer when there is none *)
Definition asrc (a : vars) (x : src) : val + res :=
  match x with
  | SVal v => inl v
  | SValOf p => match a p with None => inr RBad | Some None => inr RNull | Some (Some v) => inl v end
  | SPartOf p => match a p with None => inr RBad | Some None => inr RNull | Some (Some v) => inl (tl v) end
  end.
Definition anew (a : vars) (o : nat) (x : src) (t : bool) : res * vars :=
  match a o with
  | Some _ => (RBad, a)
  | None => match asrc a x with inr r => (r, a) | inl v => if t then (REx, a) else (RUnit, aput a o (Some (Some v))) end
  end.
(** an assignment whose constructor throws leaves the variable nil *)
Definition aset (a : vars) (o : nat) (x : src) (t : bool) : res * vars :=
  match a o with
  | None => (RBad, a)
  | Some _ => match asrc a x with inr r => (r, a) | inl v => if t then (REx, aput a o (Some None)) else (RUnit, aput a o (Some (Some v))) end
  end.
Definition astep (a : vars) (p : op) : res * vars :=
  match p with
  | ONew o => match a o with Some _ => (RBad, a) | None => (RUnit, aput a o (Some None)) end
  | ONewVal o x t => anew a o x t
  | ONewC o x t => anew a o x t
  | ONewCopy o p t =>
      match a o, a p with
      | None, Some None => (RUnit, aput a o (Some None))
      | None, Some (Some v) => if t then (REx, a) else (RUnit, aput a o (Some (Some v)))
      | _, _ => (RBad, a)
      end
  | ONewMove o p t =>
      match a o, a p with
      | None, Some None => (RUnit, aput a o (Some None))
      | None, Some (Some v) => if t then (REx, a) else (RUnit, aput (aput a o (Some (Some v))) p (Some None))
      | _, _ => (RBad, a)
      end
  | ODel o => match a o with None => (RBad, a) | Some _ => (RUnit, aput a o None) end
  | ONil o => match a o with None => (RBad, a) | Some _ => (RUnit, aput a o (Some None)) end
  | OSet o x t => match x with SValOf p => if Nat.eqb p o then (match a o with None => RBad | Some None => RNull | Some (Some _) => RUnit end, a) else aset a o x t | _ => aset a o x t end
  | OSetC o x t => aset a o x t
  | OCopy o p t =>
      match a o, a p with
      | Some _, Some y =>
          if Nat.eqb o p then (RUnit, a) else
          match y with None => (RUnit, aput a o (Some None)) | Some v => if t then (REx, aput a o (Some None)) else (RUnit, aput a o (Some (Some v))) end
      | _, _ => (RBad, a)
      end
  | OValue o => (match a o with None => RBad | Some None => RNull | Some (Some v) => RVal v end, a)
  | OIsNil o => (match a o with None => RBad | Some None => RBool true | Some (Some _) => RBool false end, a)
  end.
Fixpoint aruns (a : vars) (l : list op) : list res * vars :=
  match l with [] => ([], a) | p :: l => let r := astep a p in let z := aruns (snd r) l in (fst r :: fst z, snd z) end.
(** the assignment reads the value it replaces *)
Definition selfRead (p : op) : bool :=
  match p with
  | OSet o (SPartOf p) _ | OSetC o (SPartOf p) _ | OSetC o (SValOf p) _ => Nat.eqb o p
  | _ => false
  end.

(** objects of T made and destroyed, newest first *)
Inductive ev := EMk (i : nat) (v : val) | EKill (i : nat).
Fixpoint alive (h : list ev) (i : nat) : option val :=
  match h with
  | [] => None
  | EMk j v :: h => if Nat.eqb j i then Some v else alive h i
  | EKill j :: h => if Nat.eqb j i then None else alive h i
  end.
Fixpoint made (h : list ev) (i : nat) : bool :=
  match h with [] => false | EMk j _ :: h => Nat.eqb j i || made h i | EKill _ :: h => made h i end.
(** an object is made once and destroyed at most once, after that *)
Fixpoint paired (h : list ev) : Prop :=
  match h with
  | [] => True
  | EMk i _ :: h => made h i = false /\ paired h
  | EKill i :: h => alive h i <> None /\ paired h
  end.
Fixpoint nMk (h : list ev) : nat := match h with [] => 0 | EMk _ _ :: h => S (nMk h) | _ :: h => nMk h end.
Fixpoint nKill (h : list ev) : nat := match h with [] => 0 | EKill _ :: h => S (nKill h) | _ :: h => nKill h end.
(** how many of the variables 0 .. n-1 hold a value *)
Fixpoint holding (a : vars) (n : nat) : nat :=
  match n with 0 => 0 | S n => (match a n with Some (Some _) => 1 | _ => 0 end) + holding a n end.
