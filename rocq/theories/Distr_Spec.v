(** What a distributor without stages should do: messages are queued, each has the listeners that have still to get it.

    [None]: the use is outside of what is claimed: Return or Raise outside of a listener, and, because of a fault of the linked
    list (C23), adding a listener after the last one of several was removed. *)
From Verif Require Import Common.

(** a listener and the number of its entry, it may be added more times *)
Definition entry := (nat * nat)%type.
(** what the running code does; the code is the main program or the listener called as the last one that has not returned *)
Inductive act := Add (p : nat) | PriorityAdd (p : nat) | Remove (p : nat) | RemoveAll | IsAdded (p : nat) | Size
  | Send (sender : option nat) (msg stage : nat) | Finish (stage : nat) | Stop (stage : nat) | Exit (msg : nat) | Return | Raise.
(** [Call p m]: listener [p] is called with [m]; [Done]: send or finish has returned to the running code; [Thrown]: it threw *)
Inductive out := Call (p m : nat) | Done | Thrown | Nothing | Removed (b : bool) | Number (n : nat).

Record sst := mkSS { lst : list entry; queue : list (nat * list entry); depth : nat; next : nat; lastok : bool }.
Definition sinit : sst := mkSS [] [] 0 0 true.
(** the next listener to be called *)
Fixpoint advance (q : list (nat * list entry)) : option (entry * nat) * list (nat * list entry) :=
  match q with
  | [] => (None, [])
  | (m, []) :: t => advance t
  | (m, e :: r) :: t => (Some (e, m), (m, r) :: t)
  end.
Fixpoint drop_entry (i : nat) (l : list entry) : list entry := match l with [] => [] | e :: t => if i =? fst e then t else e :: drop_entry i t end.
Fixpoint find_listener (p : nat) (l : list entry) : option nat := match l with [] => None | e :: t => if p =? snd e then Some (fst e) else find_listener p t end.
Definition number (p : nat) (l : list entry) : nat := length (filter (fun e => p =? snd e) l).
Definition last_entry (l : list entry) : option nat := match rev l with [] => None | e :: _ => Some (fst e) end.
(** a listener added in the meantime gets the messages that have not reached the last one *)
Definition join (e : entry) (p : nat * list entry) : nat * list entry := (fst p, match snd p with [] => [] | r => r ++ [e] end).

Definition go (s : sst) (q : list (nat * list entry)) (d0 d1 : nat) : out * sst :=
  match advance q with
  | (Some (e, m), q') => (Call (snd e) m, mkSS (lst s) q' d1 (next s) (lastok s))
  | (None, q') => (Done, mkSS (lst s) q' d0 (next s) (lastok s))
  end.
Definition sexec (a : act) (s : sst) : option (out * sst) :=
  match a with
  | Add p => if lastok s then let e := (next s, p) in Some (Nothing, mkSS (lst s ++ [e]) (map (join e) (queue s)) (depth s) (S (next s)) true) else None
  | PriorityAdd p => Some (Nothing, mkSS ((next s, p) :: lst s) (queue s) (depth s) (S (next s)) (lastok s))
  | Remove p =>
      match find_listener p (lst s) with
      | None => Some (Removed false, s)
      | Some i =>
          let l := drop_entry i (lst s) in
          let ok := match l with [] => true | _ => match last_entry (lst s) with Some j => if i =? j then false else lastok s | None => true end end in
          Some (Removed true, mkSS l (map (fun p => (fst p, drop_entry i (snd p))) (queue s)) (depth s) (next s) ok)
      end
  | RemoveAll => Some (Nothing, mkSS [] [] (depth s) (next s) true)
  | IsAdded p => Some (Number (number p (lst s)), s)
  | Size => Some (Number (length (lst s)), s)
  | Send _ m 0 => Some (go s (queue s ++ [(m, lst s)]) (depth s) (S (depth s)))
  | Finish 0 => Some (go s (queue s) (depth s) (S (depth s)))
  | Stop 0 => Some (Nothing, mkSS (lst s) [] (depth s) (next s) (lastok s))
  | Return => match depth s with O => None | S d => Some (go s (queue s) d (S d)) end
  | Raise => match depth s with O => None | S d => Some (Thrown, mkSS (lst s) [] d (next s) (lastok s)) end
  | _ => None
  end.
Fixpoint srun (l : list act) (s : sst) : option (list out * sst) :=
  match l with
  | [] => Some ([], s)
  | a :: t => match sexec a s with
              | Some (x, s1) => match srun t s1 with Some (xs, s2) => Some (x :: xs, s2) | None => None end
              | None => None end
  end.
(** messages got by a listener, messages sent *)
Fixpoint got (p : nat) (l : list out) : list nat := match l with [] => [] | Call q m :: t => if p =? q then m :: got p t else got p t | _ :: t => got p t end.
Fixpoint sent (l : list act) : list nat := match l with [] => [] | Send _ m _ :: t => m :: sent t | _ :: t => sent t end.
(** [a] is [b] with some members left out *)
Inductive sub {A} : list A -> list A -> Prop := sub_nil : forall b, sub [] b | sub_keep : forall x a b, sub a b -> sub (x :: a) (x :: b) | sub_skip : forall x a b, sub a b -> sub a (x :: b).
(** listeners added by a list of actions *)
Fixpoint added (l : list act) : list nat := match l with [] => [] | Add p :: t => p :: added t | PriorityAdd p :: t => p :: added t | _ :: t => added t end.
(** the actions that do not change the listeners and do not cancel messages, all in one stage *)
Definition quiet (a : act) : bool :=
  match a with Send _ _ 0 | Finish 0 | Return | IsAdded _ | Size => true | _ => false end.
