(** A file in memory: a growable array of bytes with a position.  Nothing here mentions the
    model.  A byte that was never written ([None], left by growing the file past its end) has
    no specified value. *)
From Coq Require Import List NArith.
Import ListNotations.
Local Open Scope N_scope.

Definition cell := option N.

Inductive fop :=
| FRead (n : N) | FPeek (n : N) | FReadAt (n off : N)
| FWrite (d : list N) | FWriteAt (d : list N) (off : N)
| FSetSize (n : N) | FSetPos (p : N) | FSize | FCanRead | FEmpty | FClear.

(** what the caller sees: the bytes read, the number of bytes written, ... *)
Inductive fanswer := FBytes (b : list cell) | FNum (n : N) | FBool (b : bool) | FDone.

Definition flen {A} (l : list A) : N := N.of_nat (length l).

(** at most n bytes starting at p *)
Definition bytes_at (c : list cell) (p n : N) : list cell :=
  firstn (N.to_nat n) (skipn (N.to_nat p) c).

(** exactly n bytes: cut or extended by bytes of unspecified value *)
Definition with_size (c : list cell) (n : N) : list cell :=
  firstn (N.to_nat n) c ++ repeat None (N.to_nat n - length c)%nat.

(** the array is extended up to the position if it is shorter, then d replaces what was there
    and what lies behind d stays *)
Definition put_at (c : list cell) (p : N) (d : list N) : list cell :=
  with_size c p ++ map Some d ++ skipn (N.to_nat p + length d)%nat c.

Definition fspec_step (s : list cell * N) (o : fop) : fanswer * (list cell * N) :=
  let (c, pos) := s in
  match o with
  | FRead n => let b := bytes_at c pos n in (FBytes b, (c, pos + flen b))
  | FPeek n => (FBytes (bytes_at c pos n), s)
  | FReadAt n off => (FBytes (bytes_at c off n), s)
  | FWrite d => (FNum (flen d), (put_at c pos d, pos + flen d))
  | FWriteAt d off => (FNum (flen d), (put_at c off d, pos))
  | FSetSize n => (FDone, (with_size c n, pos))
  | FSetPos p => (FDone, (c, p))
  | FSize => (FNum (flen c), s)
  | FCanRead => (FBool (pos <? flen c), s)
  | FEmpty => (FBool (flen c =? 0), s)
  | FClear => (FDone, ([], 0))
  end.

(** Positions and sizes are 64 bit numbers; a request may not reach past the last of them. *)
Definition fits_step (s : list cell * N) (o : fop) : Prop :=
  match o with
  | FRead n | FPeek n => snd s + n < 2 ^ 64
  | FReadAt n off => off + n < 2 ^ 64
  | FWrite d => snd s + flen d < 2 ^ 64
  | FWriteAt d off => off + flen d < 2 ^ 64
  | FSetSize n | FSetPos n => n < 2 ^ 64
  | _ => True
  end.

Fixpoint fspec_run (s : list cell * N) (os : list fop) : list fanswer * (list cell * N) :=
  match os with
  | [] => ([], s)
  | o :: os => let (a, s) := fspec_step s o in let (r, s) := fspec_run s os in (a :: r, s)
  end.

Fixpoint fits (s : list cell * N) (os : list fop) : Prop :=
  match os with
  | [] => True
  | o :: os => fits_step s o /\ fits (snd (fspec_step s o)) os
  end.
