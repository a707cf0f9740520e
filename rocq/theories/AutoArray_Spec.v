(** Growing arrays as lists, independent of the code.  [limit] is the greatest possible length
    ([None]: no limit). *)
From Verif Require Import Common.

Inductive aop (T : Type) : Type :=
| Add (x : T)
| AddN (x : T) (n : nat)
| Append (l : list T)
| Resize (n : nat) (x : T)
| ResizeD (n : nat)
| Insert (at_ : nat) (x : T) (n : nat)
| InsertArray (at_ : nat) (l : list T)
| Erase (at_ : nat) (n : N)
| Trunc (n : nat)
| Clear
| Reserve (n : nat)
| FreeExtra
| Get (i : nat)
| Set_ (i : nat) (x : T).
Arguments Add {T}. Arguments AddN {T}. Arguments Append {T}. Arguments Resize {T}. Arguments ResizeD {T}.
Arguments Insert {T}. Arguments InsertArray {T}. Arguments Erase {T}. Arguments Trunc {T}. Arguments Clear {T}.
Arguments Reserve {T}. Arguments FreeExtra {T}. Arguments Get {T}. Arguments Set_ {T}.

(** [Failed]: an exception *)
Inductive answer (T : Type) : Type := Done | Item (x : T) | Failed.
Arguments Done {T}. Arguments Item {T}. Arguments Failed {T}.

Definition within (limit : option nat) (n : nat) : bool :=
  match limit with None => true | Some c => n <=? c end.

Section Spec.
  Context {T : Type} (dflt : T) (limit : option nat).

  (** the caller's duties: read and write inside the array, insert at least one item unless at
      the end, erase with a count that does not wrap around; and the array is one that can exist *)
  Definition allowed (l : list T) (o : aop T) : Prop :=
    (N.of_nat (length l) < 2 ^ 64)%N /\
    match o with
    | Get i | Set_ i _ => i < length l
    | Insert at_ _ n => at_ < length l -> 0 < n
    | InsertArray at_ xs => at_ < length l -> xs <> []
    | Erase at_ n => (N.of_nat at_ + n < 2 ^ 64)%N
    | _ => True
    end.

  (** exceptions leave the array as it was *)
  Definition grow (l l' : list T) : answer T * list T :=
    if within limit (length l') then (Done, l') else (Failed, l).

  Definition spec (l : list T) (o : aop T) : answer T * list T :=
    match o with
    | Add x => grow l (l ++ [x])
    | AddN x n => grow l (l ++ repeat x n)
    | Append xs => grow l (l ++ xs)
    | Resize n x => grow l (firstn n l ++ repeat x (n - length l))
    | ResizeD n => grow l (firstn n l ++ repeat dflt (n - length l))
    | Insert at_ x n => if length l <? at_ then (Failed, l) else grow l (firstn at_ l ++ repeat x n ++ skipn at_ l)
    | InsertArray at_ xs => if length l <? at_ then (Failed, l) else grow l (firstn at_ l ++ xs ++ skipn at_ l)
    | Erase at_ n => if length l <? at_ then (Failed, l) else (Done, firstn at_ l ++ skipn (at_ + N.to_nat n) l)
    | Trunc n => (Done, firstn (length l - n) l)
    | Clear => (Done, [])
    | Reserve n => if within limit n then (Done, l) else (Failed, l)
    | FreeExtra => (Done, l)
    | Get i => match nth_error l i with Some x => (Item x, l) | None => (Failed, l) end
    | Set_ i x => (Done, upd l i x)
    end.

  Fixpoint specRun (l : list T) (os : list (aop T)) : list (answer T) * list T :=
    match os with
    | [] => ([], l)
    | o :: r => let (a, l1) := spec l o in let (b, l2) := specRun l1 r in (a :: b, l2)
    end.

  Fixpoint allowedRun (l : list T) (os : list (aop T)) : Prop :=
    match os with
    | [] => True
    | o :: r => allowed l o /\ allowedRun (snd (spec l o)) r
    end.

  (** the items an operation puts at the end *)
  Definition added (l : list T) (o : aop T) : list T :=
    match o with
    | Add x => [x]
    | AddN x n => repeat x n
    | Append xs => xs
    | Resize n x => repeat x (n - length l)
    | Insert _ x n => repeat x n
    | InsertArray _ xs => xs
    | _ => []
    end.

  (** operations that change nothing but the end of the array *)
  Definition atEnd (l : list T) (o : aop T) : bool :=
    match o with
    | Insert at_ _ _ | InsertArray at_ _ => length l <=? at_
    | Erase at_ n => (N.of_nat (length l) <=? N.of_nat at_ + n)%N
    | _ => true
    end.

  (** what can be seen of a history when one construction of an item may throw ([may]): the
      operation where it happens fails and has added only some of its items *)
  Inductive seen : bool -> list T -> list (aop T) -> list (answer T) -> list T -> Prop :=
  | seen_end may l : seen may l [] [] l
  | seen_step may l o x l1 os xs l2 : spec l o = (x, l1) -> seen may l1 os xs l2 -> seen may l (o :: os) (x :: xs) l2
  | seen_throw l o i os xs l2 : seen false (l ++ firstn i (added l o)) os xs l2 -> seen true l (o :: os) (Failed :: xs) l2.

  (** the duties on every way such a history can go, with changes at the end of the array only *)
  Fixpoint allowedEnd (may : bool) (l : list T) (os : list (aop T)) : Prop :=
    match os with
    | [] => True
    | o :: r => allowed l o /\ atEnd l o = true /\ allowedEnd may (snd (spec l o)) r /\
                (may = true -> forall i, allowedEnd false (l ++ firstn i (added l o)) r)
    end.
End Spec.
