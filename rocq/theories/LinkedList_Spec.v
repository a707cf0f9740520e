(** A sequence with insertion and removal, on plain lists; nothing here mentions the model. *)
From Coq Require Import List Arith.
Import ListNotations.

Section Spec.
  Context {A : Type}.

  (** Positions are counted from the beginning, starting with 0. *)
  Inductive lop :=
  | LInsertFirst (x : A) | LAdd (x : A) | LInsertAfter (i : nat) (x : A)
  | LInsertBefore (i : nat) (x : A) | LEraseFirst | LErase (i : nat) | LClear
  | LGetFirst | LGetLast | LGetAt (i : nat) | LSize | LEmpty | LItems.

  (** what the caller sees *)
  Inductive lanswer :=
  | LDone | LItem (x : A) | LNumber (n : nat) | LFlag (b : bool) | LAll (l : list A) | LFailed.

  Definition opt_answer (o : option A) : lanswer :=
    match o with Some x => LItem x | None => LFailed end.

  Definition lspec_step (l : list A) (o : lop) : lanswer * list A :=
    match o with
    | LInsertFirst x => (LDone, x :: l)
    | LAdd x => (LDone, l ++ [x])
    | LInsertAfter i x =>
        if i <? length l then (LDone, firstn (S i) l ++ x :: skipn (S i) l) else (LFailed, l)
    | LInsertBefore i x =>
        if i <? length l then (LDone, firstn i l ++ x :: skipn i l) else (LFailed, l)
    | LEraseFirst => (LDone, tl l)
    | LErase i => (LDone, firstn i l ++ skipn (S i) l)
    | LClear => (LDone, [])
    | LGetFirst => (opt_answer (hd_error l), l)
    | LGetLast => (opt_answer (hd_error (rev l)), l)
    | LGetAt i => (opt_answer (nth_error l i), l)
    | LSize => (LNumber (length l), l)
    | LEmpty => (LFlag (match l with [] => true | _ => false end), l)
    | LItems => (LAll l, l)
    end.

  Fixpoint lspec_run (l : list A) (os : list lop) : list lanswer * list A :=
    match os with
    | [] => ([], l)
    | o :: os => let '(a, l) := lspec_step l o in let '(r, l) := lspec_run l os in (a :: r, l)
    end.

  (** Histories that remove an item through an iterator only if it is the first item or is
      followed by another one: removal of the last item at position i > 0 is left out, and so
      is removal through an iterator at the end. *)
  Definition keeps_last_step (l : list A) (o : lop) : Prop :=
    match o with
    | LErase i => i = 0 \/ S i < length l
    | _ => True
    end.

  Fixpoint keeps_last (l : list A) (os : list lop) : Prop :=
    match os with
    | [] => True
    | o :: os => keeps_last_step l o /\ keeps_last (snd (lspec_step l o)) os
    end.
End Spec.
Arguments lop : clear implicits.
Arguments lanswer : clear implicits.
