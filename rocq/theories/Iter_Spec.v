(** Specification of the iterators: what a reader of a list and a writer to a list answer.
    No reference to the model. *)
From Verif Require Import Common.

(** ** Readers *)
Inductive rop := RHas | RPeek | RNext.
Inductive ranswer (A : Type) := AnsBool (b : bool) | AnsItem (x : A) | AnsEnd.
Arguments AnsBool {A} b.
Arguments AnsItem {A} x.
Arguments AnsEnd {A}.

(** a reader of the list [l]: asks for items, looks at the next one, takes it *)
Definition read_op {A} (l : list A) (o : rop) : ranswer A * list A :=
  match o, l with
  | RHas, [] => (AnsBool false, l)
  | RHas, _ :: _ => (AnsBool true, l)
  | RPeek, [] => (AnsEnd, l)
  | RPeek, x :: _ => (AnsItem x, l)
  | RNext, [] => (AnsEnd, l)
  | RNext, x :: t => (AnsItem x, t)
  end.
Fixpoint read_ops {A} (l : list A) (os : list rop) : list (ranswer A) * list A :=
  match os with
  | [] => ([], l)
  | o :: r => let (a, l) := read_op l o in let (t, l) := read_ops l r in (a :: t, l)
  end.

(** ** Writers: a target holding at most [room] more items (None: no limit) *)
Record target (A : Type) := mkTarget { tdata : list A; troom : option nat }.
Arguments mkTarget {A} tdata troom.
Arguments tdata {A} t.
Arguments troom {A} t.
Definition t_open {A} (t : target A) : bool := match troom t with Some O => false | _ => true end.
Definition t_fits {A} (t : target A) (n : nat) : bool := match troom t with Some r => n <=? r | None => true end.
Definition t_push {A} (t : target A) (l : list A) : target A :=
  mkTarget (tdata t ++ l) (match troom t with Some r => Some (r - length l) | None => None end).
