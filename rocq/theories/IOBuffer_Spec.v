(** Reading from a source and writing to a sink through a transparent buffer.  Nothing here
    mentions the model.

    The state is the input that was not delivered yet and all the output accepted so far. *)
From Coq Require Import List Arith.
Import ListNotations.

Section Spec.
  Context {A : Type}.

  Inductive iop :=
  | IRead (n : nat) | IPeek (n : nat) | ICanRead | IFetch | IDiscard (n : nat)
  | IWrite (d : list A) | IFlush.

  Inductive ianswer :=
  | IBytes (b : list A) | IBool (b : bool) | ICount (n : nat) | IUnit.

  (** b is a beginning of l of at most n items, not empty unless l or n is *)
  Definition portion (l : list A) (n : nat) (b : list A) : Prop :=
    (exists r, l = b ++ r) /\ length b <= n /\ (l <> [] -> n <> 0 -> b <> []).

  Definition io_step (s : list A * list A) (o : iop) (a : ianswer) (s' : list A * list A) : Prop :=
    let (inp, out) := s in
    match o, a with
    | IRead n, IBytes b => portion inp n b /\ s' = (skipn (length b) inp, out)
    | IPeek n, IBytes b => portion inp n b /\ s' = s
    | ICanRead, IBool b => (b = true <-> inp <> []) /\ s' = s
    | IFetch, ICount _ => s' = s
    | IDiscard n, IUnit => exists k, k <= n /\ s' = (skipn k inp, out)
    | IWrite d, ICount k => k <= length d /\ (d <> [] -> k <> 0) /\ s' = (inp, out ++ firstn k d)
    | IFlush, IUnit => s' = s
    | _, _ => False
    end.

  Fixpoint io_run (s : list A * list A) (os : list iop) (rs : list ianswer) (s' : list A * list A)
    : Prop :=
    match os, rs with
    | [], [] => s' = s
    | o :: os, a :: rs => exists s1, io_step s o a s1 /\ io_run s1 os rs s'
    | _, _ => False
    end.
End Spec.
Arguments iop : clear implicits.
Arguments ianswer : clear implicits.
