(** Histories of stacks, independent of the code. *)
From Verif Require Import Common.

(** what happened to list [l]: an item was put on top, the top item was taken, nothing was there to take *)
Inductive event := EPush (l i : nat) | EPop (l i : nat) | ENone (l : nat).

(** the stacks after a history; None: no stacks could have behaved like this *)
Fixpoint replay (h : list event) (st : nat -> list nat) : option (nat -> list nat) :=
  match h with
  | [] => Some st
  | EPush l i :: r => replay r (fun k => if k =? l then i :: st l else st k)
  | EPop l i :: r =>
      match st l with
      | x :: t => if x =? i then replay r (fun k => if k =? l then t else st k) else None
      | [] => None
      end
  | ENone l :: r => match st l with [] => replay r st | _ => None end
  end.

Definition legal (h : list event) : Prop := exists st, replay h (fun _ => []) = Some st.

(** how often items were taken from list [l] *)
Fixpoint taken (l : nat) (h : list event) : nat :=
  match h with
  | [] => 0
  | EPop k _ :: r => if k =? l then S (taken l r) else taken l r
  | _ :: r => taken l r
  end.
