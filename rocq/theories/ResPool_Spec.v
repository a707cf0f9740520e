(** What is expected of a pool of resources, independent of the code. *)
From Coq Require Import ZArith.
From Verif Require Import Common.
Import ListNotations.

(** the new limit and the number of resources that may still be made after a change of the limit;
    [used] is what was made and not destroyed *)
Definition set_limit (used new : Z) : Z * Z := (new, new - used)%Z.
