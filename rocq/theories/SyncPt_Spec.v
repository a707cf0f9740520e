(** What a synchronisation point does, in terms of the slots registered on it.
    Independent of the code. *)
From Verif Require Import Common.

(** slots are numbered in the order of their creation *)
Inductive sop :=
| ONew                (* a new slot *)
| OAdd (p : nat)      (* register the slot *)
| ORemove (p : nat)   (* take it back *)
| OOne                (* notify one *)
| OAll                (* notify all *)
| OTest (p : nat)     (* has the slot been notified? *)
| OReset (p : nat).   (* make a notified slot fresh again *)

Inductive sorder := Oldest | Newest.

(** those that wait, the longest waiting first, and those that were notified *)
Record sspec := mkSS { made : nat; waiting : list nat; notified : list nat }.

Definition sspec0 : sspec := mkSS 0 [] [].

Definition isIn (p : nat) (l : list nat) : bool := existsb (Nat.eqb p) l.
Definition without (p : nat) (l : list nat) : list nat := filter (fun r => negb (r =? p)) l.

(** the answer is a yes or no; [None] for a slot that does not exist *)
Definition sspecStep (ord : sorder) (o : sop) (s : sspec) : option (sspec * bool) :=
  match o with
  | ONew => Some (mkSS (S (made s)) (waiting s) (notified s), true)
  | OAdd p =>
      if negb (p <? made s) then None else
      if isIn p (waiting s) || isIn p (notified s) then Some (s, false)
      else Some (mkSS (made s) (waiting s ++ [p]) (notified s), true)
  | ORemove p =>
      if negb (p <? made s) then None else
      Some (mkSS (made s) (without p (waiting s)) (notified s), isIn p (waiting s))
  | OOne =>
      match ord with
      | Oldest => match waiting s with
                  | [] => Some (s, false)
                  | p :: w => Some (mkSS (made s) w (p :: notified s), true)
                  end
      | Newest => match rev (waiting s) with
                  | [] => Some (s, false)
                  | p :: w => Some (mkSS (made s) (rev w) (p :: notified s), true)
                  end
      end
  | OAll => Some (mkSS (made s) [] (waiting s ++ notified s), negb (length (waiting s) =? 0))
  | OTest p => if negb (p <? made s) then None else Some (s, isIn p (notified s))
  | OReset p => if negb (p <? made s) then None else
                Some (mkSS (made s) (waiting s) (without p (notified s)), isIn p (notified s))
  end.

Fixpoint sspecRun (ord : sorder) (ops : list sop) (s : sspec) : option (sspec * list bool) :=
  match ops with
  | [] => Some (s, [])
  | o :: ops' =>
      match sspecStep ord o s with
      | None => None
      | Some (s1, a) => match sspecRun ord ops' s1 with
                        | None => None
                        | Some (s2, l) => Some (s2, a :: l)
                        end
      end
  end.

(** every slot is registered at most once, and taken back only after it was
    registered *)
Fixpoint onceOnly (added : list nat) (ops : list sop) : Prop :=
  match ops with
  | [] => True
  | OAdd p :: ops' => ~ In p added /\ onceOnly (p :: added) ops'
  | ORemove p :: ops' => In p added /\ onceOnly added ops'
  | OReset p :: ops' => In p added /\ onceOnly added ops'
  | _ :: ops' => onceOnly added ops'
  end.
