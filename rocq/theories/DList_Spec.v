(** What a list with iterators should be.  Items are known by numbers, [vals] are the values of all items ever made. *)
From Coq Require Import ZArith.
From Verif Require Import Common.

(** the place of an iterator: an item or the end *)
Definition place := option nat.
Record sst := mkS { order : list nat; vals : list (nat * Z); next : nat; its : list (place * bool) }.
Definition sinit : sst := mkS [] [] 1 [].
Fixpoint value (i : nat) (l : list (nat * Z)) : option Z := match l with [] => None | (j, v) :: t => if i =? j then Some v else value i t end.
Definition first (l : list nat) : place := match l with [] => None | x :: _ => Some x end.
(** the item behind; behind the end is the first one *)
Fixpoint succ_in (i : nat) (l : list nat) : place := match l with [] => None | x :: t => if i =? x then first t else succ_in i t end.
Definition behind (p : place) (l : list nat) : place := match p with None => first l | Some i => succ_in i l end.
Definition step (fw : bool) (p : place) (l : list nat) : place := if fw then behind p l else behind p (rev l).
Fixpoint put_after (i x : nat) (l : list nat) : list nat := match l with [] => [] | y :: t => if i =? y then y :: x :: t else y :: put_after i x t end.
Fixpoint put_before (i x : nat) (l : list nat) : list nat := match l with [] => [] | y :: t => if i =? y then x :: y :: t else y :: put_before i x t end.
(** the place is in the list *)
Definition live (p : place) (l : list nat) : bool := match p with None => true | Some i => existsb (Nat.eqb i) l end.

Inductive op := AddFront (x : Z) | AddBack (x : Z) | Begin (fw : bool) | Next (i : nat) | Peek (i : nat) | Seek (i : nat) (fw : bool)
  | InsertAfter (i : nat) (x : Z) | InsertBefore (i : nat) (x : Z) | Erase (i : nat) | Drop (i : nat) | Clear.
Inductive out := Nothing | Value (x : Z) | NoMore.
Fixpoint rem {A} (i : nat) (l : list A) : list A := match l, i with [], _ => [] | _ :: t, O => t | x :: t, S j => x :: rem j t end.

(** [None]: the use is not allowed: an iterator that does not exist, or one whose item was removed, unless it is only read or
    dropped *)
Definition sexec (o : op) (s : sst) : option (out * sst) :=
  let add (l : list nat) x := mkS l ((next s, x) :: vals s) (S (next s)) (its s) in
  let move i p fw := mkS (order s) (vals s) (next s) (upd (its s) i (p, fw)) in
  match o with
  | AddFront x => Some (Nothing, add (next s :: order s) x)
  | AddBack x => Some (Nothing, add (order s ++ [next s]) x)
  | Begin fw => Some (Nothing, mkS (order s) (vals s) (next s) (its s ++ [(step fw None (order s), fw)]))
  | Next i =>
      match nth_error (its s) i with
      | Some (Some n, fw) =>
          if live (Some n) (order s) then
            match value n (vals s) with Some v => Some (Value v, move i (step fw (Some n) (order s)) fw) | None => None end
          else None
      | Some (None, _) => Some (NoMore, s)
      | None => None
      end
  | Peek i =>
      match nth_error (its s) i with
      | Some (Some n, _) => match value n (vals s) with Some v => Some (Value v, s) | None => None end
      | Some (None, _) => Some (NoMore, s)
      | None => None
      end
  | Seek i d =>
      match nth_error (its s) i with
      | Some (p, fw) => if live p (order s) then Some (Nothing, move i (step d p (order s)) fw) else None
      | None => None
      end
  | InsertAfter i x =>
      match nth_error (its s) i with
      | Some (p, _) => if live p (order s) then Some (Nothing, add (match p with None => next s :: order s | Some n => put_after n (next s) (order s) end) x) else None
      | None => None
      end
  | InsertBefore i x =>
      match nth_error (its s) i with
      | Some (p, _) => if live p (order s) then Some (Nothing, add (match p with None => order s ++ [next s] | Some n => put_before n (next s) (order s) end) x) else None
      | None => None
      end
  | Erase i =>
      match nth_error (its s) i with
      | Some (Some n, fw) =>
          if live (Some n) (order s) then
            Some (Nothing, mkS (remove Nat.eq_dec n (order s)) (vals s) (next s) (upd (its s) i (step fw (Some n) (order s), fw)))
          else None
      | Some (None, _) => Some (Nothing, s)
      | None => None
      end
  | Drop i => Some (Nothing, mkS (order s) (vals s) (next s) (rem i (its s)))
  | Clear => Some (Nothing, mkS [] (vals s) (next s) (its s))
  end.
Fixpoint srun (l : list op) (s : sst) : option (list out * sst) :=
  match l with
  | [] => Some ([], s)
  | o :: t => match sexec o s with
              | Some (x, s1) => match srun t s1 with Some (xs, s2) => Some (x :: xs, s2) | None => None end
              | None => None end
  end.
