(** What the cells of an event log should keep: the latest event of each cell *)
From Verif Require Import Common EvLog_Spec.
Open Scope Z_scope.

Record cupd := mkU { ucell : Z; utype : Z; udata : list Z; utime : Z }.
Definition fits (u : cupd) : Prop :=
  1 <= ucell u < 2 ^ 32 /\ 0 <= utype u < 65536 /\ bytes (udata u) /\ len (udata u) <= 524280 /\ 0 <= utime u < 2 ^ 32.
(** the latest event of a cell *)
Fixpoint latest (h : list cupd) (c : Z) : option cupd :=
  match h with
  | [] => None
  | u :: r => match latest r c with Some v => Some v | None => if ucell u =? c then Some u else None end
  end.
(** data filled up to a multiple of 8 by zeros *)
Definition zpad (d : list Z) : list Z := d ++ repeat 0 (Z.to_nat (- len d mod 8)).
(** what a listener gets: cell, place, time, type, data *)
Notation cdelivery := (Z * Z * Z * Z * list Z)%type.
Definition shows_cell (u : cupd) (x : cdelivery) : Prop :=
  match x with (c, _, t, ty, d) => c = ucell u /\ t = utime u /\ ty = utype u /\ d = zpad (udata u) end.
