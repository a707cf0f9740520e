(** What a journal of events should give back *)
From Verif Require Import Common.
Open Scope Z_scope.

Record event := mkE { etype : Z; edata : list Z; etime : Z }.
(** an event as a listener gets it: place in the file (in blocks of 8 bytes), time, type, data *)
Notation delivery := (Z * Z * Z * list Z)%type.
Definition bytes (l : list Z) : Prop := Forall (fun b => 0 <= b < 256) l.
Definition len {A} (l : list A) : Z := Z.of_nat (length l).
(** the delivery shows the event: the same time and type, the data filled up to a multiple of 8 bytes *)
Definition shows (e : event) (x : delivery) : Prop :=
  match x with (_, time, type, data) =>
    time = etime e /\ type = etype e /\ exists p, data = edata e ++ p /\ len p < 8 /\ len data mod 8 = 0
  end.
(** type 0xFFFF is reserved; at most 65535 blocks of data; the time does not go back, and there are less than 2^32 seconds from
    the last event *)
Definition good (last : Z) (e : event) : Prop :=
  0 <= etype e < 65535 /\ bytes (edata e) /\ len (edata e) <= 524280 /\ last <= etime e < last + 2 ^ 32.
Fixpoint goods (last : Z) (l : list event) : Prop := match l with [] => True | e :: r => good last e /\ goods (etime e) r end.
(** what the random generator gives *)
Definition padok (pad : nat -> Z) : Prop := forall i, 0 <= pad i < 256.
(** the same event at a later time *)
Definition later (j : Z) (e : event) : event := mkE (etype e) (edata e) (etime e + j).
Definition place (x : delivery) : Z := fst (fst (fst x)).
