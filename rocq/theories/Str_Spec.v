(** Strings as plain values, independent of the code: every variable holds a text of its
    own, and no operation on one variable can change another one. *)
From Coq Require Import ZArith.
From Verif Require Import Common.
Local Open Scope Z_scope.

(** what a program may do with string variables, numbered from 0 *)
Inductive op : Type :=
| Load (v : nat) (t : list Z)              (* v = a new string with the text t *)
| Assign (v w : nat)                       (* v = w *)
| Clear (v : nat)                          (* v.clear() *)
| Isolate (v : nat)                        (* v.isolate() *)
| Copy (v w : nat)                         (* v = w.copy() *)
| GetMT (v w : nat)                        (* v = w.getMT() *)
| Put (v i : nat) (c : Z)                  (* v.data()[i] = c *)
| Stream (v n : nat) (t : list Z)          (* v.createBufferIter(n), then the text is written as long as there is space *)
| Create (v n : nat) (t : list Z)          (* v.createBuffer(n), then the n characters of t are put into the buffer *)
| Read (v : nat)                           (* the characters of v *)
| CStr (v : nat).                          (* the C string v.c_str(), up to the first zero *)

Fixpoint up_to_zero (t : list Z) : list Z :=
  match t with [] => [] | c :: t => if c =? 0 then [] else c :: up_to_zero t end.

Definition value (vs : list (list Z)) (v : nat) : list Z := nth v vs [].
(** the new values and the answer *)
Definition spec_step (o : op) (vs : list (list Z)) : list (list Z) * list Z :=
  match o with
  | Load v t => (upd vs v t, [])
  | Assign v w | Copy v w | GetMT v w => (upd vs v (value vs w), [])
  | Clear v => (upd vs v [], [])
  | Isolate v => (vs, [])
  | Put v i c => (upd vs v (upd (value vs v) i c), [])
  | Stream v n t => (upd vs v (firstn n t), [])
  | Create v n t => (upd vs v t, [])
  | Read v => (vs, value vs v)
  | CStr v => (vs, up_to_zero (value vs v))
  end.
Fixpoint spec_run (os : list op) (vs : list (list Z)) : list (list Z) * list (list Z) :=
  match os with
  | [] => (vs, [])
  | o :: os => let (vs, a) := spec_step o vs in let (vs, l) := spec_run os vs in (vs, a :: l)
  end.

(** variables that exist, positions that exist, texts that fit into 64 bits *)
Definition op_ok (o : op) (vs : list (list Z)) : Prop :=
  let n := length vs in
  match o with
  | Load v t => (v < n)%nat /\ Z.of_nat (length t) < 2 ^ 63
  | Assign v w | Copy v w | GetMT v w => (v < n)%nat /\ (w < n)%nat
  | Clear v | Isolate v | Read v | CStr v => (v < n)%nat
  | Put v i c => (v < n)%nat /\ (i < length (value vs v))%nat
  | Stream v k t => (v < n)%nat /\ Z.of_nat k < 2 ^ 63
  | Create v k t => (v < n)%nat /\ length t = k /\ Z.of_nat k < 2 ^ 63
  end.
Fixpoint ops_ok (os : list op) (vs : list (list Z)) : Prop :=
  match os with [] => True | o :: os => op_ok o vs /\ ops_ok os (fst (spec_step o vs)) end.
(** no assignment of a variable to itself; createBuffer only for strings without a closing
    zero, C strings only for strings with one *)
Definition plain_op (zero : bool) (o : op) : Prop :=
  match o with
  | Assign v w => v <> w
  | Create _ _ _ => zero = false
  | CStr _ => zero = true
  | _ => True
  end.

(** order of texts: the first difference decides, a beginning of a text is before it *)
Fixpoint text_order (a b : list Z) : comparison :=
  match a, b with
  | [], [] => Eq
  | [], _ :: _ => Lt
  | _ :: _, [] => Gt
  | x :: a, y :: b => match x ?= y with Eq => text_order a b | c => c end
  end.
(** letters of the C locale *)
Definition lower (c : Z) : Z := if (65 <=? c) && (c <=? 90) then c + 32 else c.
