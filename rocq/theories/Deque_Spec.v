(** What a double ended queue, a queue and a stack are, on plain lists; nothing here
    mentions the model. *)
From Coq Require Import List Arith.
Import ListNotations.

Section Spec.
  Context {A : Type}.

  Inductive dop :=
  | DPushFront (x : A) | DPushBack (x : A) | DPopFront | DPopBack | DGetFront | DGetBack
  | DAt (i : nat) | DSet (i : nat) (x : A) | DLength | DEmpty | DClear | DReserve (n : nat).

  (** what the caller sees *)
  Inductive answer := Done | Item (x : A) | Number (n : nat) | Flag (b : bool) | Failed.

  (** The list is written from the front to the back; index 0 is the last item at the back. *)
  Definition spec_step (l : list A) (o : dop) : answer * list A :=
    match o with
    | DPushFront x => (Done, x :: l)
    | DPushBack x => (Done, l ++ [x])
    | DPopFront => match l with [] => (Failed, l) | _ :: r => (Done, r) end
    | DPopBack => match l with [] => (Failed, l) | _ => (Done, removelast l) end
    | DGetFront => (match l with [] => Failed | x :: _ => Item x end, l)
    | DGetBack => (match rev l with [] => Failed | x :: _ => Item x end, l)
    | DAt i => (match nth_error (rev l) i with Some x => Item x | None => Failed end, l)
    | DSet i x =>
        if i <? length l
        then (Done, firstn (length l - 1 - i) l ++ x :: skipn (length l - i) l)
        else (Failed, l)
    | DLength => (Number (length l), l)
    | DEmpty => (Flag (match l with [] => true | _ => false end), l)
    | DClear => (Done, [])
    | DReserve n => (Flag (length l <? n), l)
    end.

  Fixpoint spec_run (l : list A) (os : list dop) : list answer * list A :=
    match os with
    | [] => ([], l)
    | o :: os => let '(a, l) := spec_step l o in let '(r, l) := spec_run l os in (a :: r, l)
    end.

  (** Histories of a queue or a stack: [Some x] pushes x, [None] takes the top item. *)
  Definition pushed (os : list (option A)) : list A :=
    concat (map (fun o => match o with Some x => [x] | None => [] end) os).

  Fixpoint stack_spec (st : list A) (os : list (option A)) : list A :=
    match os with
    | [] => []
    | Some x :: os => stack_spec (x :: st) os
    | None :: os => match st with [] => stack_spec [] os | x :: st => x :: stack_spec st os end
    end.
End Spec.
Arguments dop : clear implicits.
Arguments answer : clear implicits.
