(** Specification of an allocator: which blocks are in use. *)
From Coq Require Import ZArith Permutation.
From Verif Require Import Common.
Local Open Scope Z_scope.

(** [CAlloc sz a]: allocate [sz] bytes; [a] is what the allocator behind
    answers, should it be asked for memory.  [CFree p sz]: give a block back to
    the allocator, [CFreeVia o p sz]: give it back to the owner the allocation
    reported.  [CWrite p v]: the program writes to the first byte of a block.
    [CClear]: drop everything and report what was not given back. *)
Inductive cop :=
| CAlloc (sz a : Z) | CFree (p sz : Z) | CFreeVia (o p sz : Z) | CWrite (p v : Z) | CClear.
Inductive cans := ABlock (p owner : Z) | ADone | ALeaks (l : list Z).

(** a block in use: its address, its size, its owner *)
Definition block := (Z * Z * Z)%type.
Definition addr (b : block) : Z := fst (fst b).

(** [p, p+n) and [q, q+m) do not meet *)
Definition apart (p n q m : Z) : Prop := p + n <= q \/ q + m <= p.

Definition drop (p : Z) (live : list block) : list block := filter (fun b => negb (addr b =? p)) live.

Definition liveAfter (op : cop) (a : cans) (live : list block) : list block :=
  match op, a with
  | CAlloc sz _, ABlock p o => (p, sz, o) :: live
  | CFree p _, _ | CFreeVia _ p _, _ => drop p live
  | CClear, _ => []
  | _, _ => live
  end.

(** what a program may do *)
Definition callowed (op : cop) (live : list block) : Prop :=
  match op with
  | CAlloc sz _ => 1 <= sz
  | CFree p sz => exists o, In (p, sz, o) live
  | CFreeVia o p sz => In (p, sz, o) live
  | CWrite p v => In p (map addr live) /\ 0 <= v < 256
  | CClear => True
  end.

(** what the allocator has to answer *)
Definition canswer (op : cop) (live : list block) (a : cans) : Prop :=
  match op with
  | CAlloc sz _ => exists p o, a = ABlock p o /\ forall q n o', In (q, n, o') live -> apart p sz q n
  | CClear => exists l, a = ALeaks l /\ Permutation l (map addr live)
  | _ => a = ADone
  end.

(** [chistory ops l live]: the operations gave the answers [l] and the blocks
    [live] are in use *)
Inductive chistory : list cop -> list cans -> list block -> Prop :=
| ch_nil : chistory [] [] []
| ch_step ops l live op a :
    chistory ops l live -> callowed op live -> canswer op live a ->
    chistory (ops ++ [op]) (l ++ [a]) (liveAfter op a live).
