(** A pool of strings, independent of the code: the strings that were added and may still be used, with the
    references that were given for them. *)
From Coq Require Import ZArith List.
Import ListNotations.
Open Scope Z_scope.

(** a reference: offset and length *)
Record sref := mkRef { off : Z; len : Z }.
(** a part of a string *)
Definition part (o l : nat) (s : list Z) : list Z := firstn l (skipn o s).
(** a user's notebook: the references with the strings they stand for; [true]: a copy was made for it *)
Definition book := list (sref * list Z * bool).
(** release(mark) gives up the strings that were added after mark(): [m] is the mark, copies are closed by a zero if [z] *)
Definition older (z : bool) (m : Z) (e : sref * list Z * bool) : bool :=
  let '(r, _, f) := e in off r + len r + (if (z && f)%bool then 1 else 0) <=? m.
