(** What a user expects of a lock with a fair queue, said by the history of what
    happens: independent of the code. *)
From Verif Require Import Common.

Inductive event :=
| Lines (t : nat)    (* the thread takes its place in the queue of the lock *)
| Gets (t : nat)     (* its constructor returns: it is inside *)
| Frees (t : nat).   (* its destructor gives the lock up *)

(** who is inside and who stands in the queue, the first one first *)
Definition sit : Type := (option nat * list nat)%type.

Definition allowed (x : sit) (e : event) : option sit :=
  match e, x with
  | Lines t, (i, q) => if existsb (Nat.eqb t) q then None
                       else match i with
                            | Some u => if u =? t then None else Some (i, q ++ [t])
                            | None => Some (i, q ++ [t])
                            end
  | Gets t, (None, u :: q) => if u =? t then Some (Some t, q) else None
  | Frees t, (Some u, q) => if u =? t then Some (None, q) else None
  | _, _ => None
  end.

(** the situation after a history; None: the history breaks the rules *)
Fixpoint follow (x : sit) (l : list event) : option sit :=
  match l with
  | [] => Some x
  | e :: l' => match allowed x e with Some x' => follow x' l' | None => None end
  end.

Definition fresh : sit := (None, []).
