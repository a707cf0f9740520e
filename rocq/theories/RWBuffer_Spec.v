(** Item by item reading and writing through a transparent buffer.  Nothing here mentions
    the model. *)
From Coq Require Import List Arith.
Import ListNotations.

Section Spec.
  Context {A : Type}.

  (** Reading: hasItems, getNext, peek, unget(item), unget(). *)
  Inductive rop := RHas | RNext | RPeek | RUnget (x : A) | RBack.
  Inductive ranswer := RBool (b : bool) | RItem (x : A) | RNoItems | RNoSpace | RDone.

  (** The items read so far (the last one first), the items still to be read, and whether the
      last call returned an item by getNext. *)
  Record rstate := RS { past : list A; future : list A; fresh : bool }.

  Definition r_step (s : rstate) (o : rop) (a : ranswer) (s' : rstate) : Prop :=
    match o with
    | RHas => a = RBool (match future s with [] => false | _ => true end) /\
              s' = RS (past s) (future s) false
    | RNext =>
        match future s with
        | x :: f => a = RItem x /\ s' = RS (x :: past s) f true
        | [] => a = RNoItems /\ s' = RS (past s) [] false
        end
    | RPeek =>
        match future s with
        | x :: f => a = RItem x /\ s' = RS (past s) (future s) false
        | [] => a = RNoItems /\ s' = RS (past s) [] false
        end
    | RUnget x =>
        match past s with
        | _ :: p => a = RDone /\ s' = RS p (x :: future s) false
        | [] => False
        end \/ a = RNoSpace /\ fresh s = false /\ s' = RS (past s) (future s) false
    | RBack =>
        match past s with
        | y :: p => a = RDone /\ s' = RS p (y :: future s) false
        | [] => False
        end \/ a = RNoSpace /\ fresh s = false /\ s' = RS (past s) (future s) false
    end.

  Fixpoint r_run (s : rstate) (os : list rop) (rs : list ranswer) (s' : rstate) : Prop :=
    match os, rs with
    | [], [] => s' = s
    | o :: os, a :: rs => exists s1, r_step s o a s1 /\ r_run s1 os rs s'
    | _, _ => False
    end.

  (** the next call asks for an item although none remains *)
  Definition asks_too_much (s : rstate) (os : list rop) : Prop :=
    future s = [] /\ match os with (RNext | RPeek) :: _ => True | _ => False end.

  (** Writing: write, flush, unwrite. *)
  Inductive wop := WWrite (x : A) | WFlush | WUnwrite.
  Inductive wanswer := WUnit | WItem (x : A) | WNoItems.

  (** The items written, and whether the last call was a write. *)
  Definition w_step (s : list A * bool) (o : wop) (a : wanswer) (s' : list A * bool) : Prop :=
    match o with
    | WWrite x => a = WUnit /\ s' = (fst s ++ [x], true)
    | WFlush => a = WUnit /\ s' = (fst s, false)
    | WUnwrite =>
        (exists l x, fst s = l ++ [x] /\ a = WItem x /\ s' = (l, false)) \/
        (a = WNoItems /\ snd s = false /\ s' = (fst s, false))
    end.

  Fixpoint w_run (s : list A * bool) (os : list wop) (rs : list wanswer) (s' : list A * bool) : Prop :=
    match os, rs with
    | [], [] => s' = s
    | o :: os, a :: rs => exists s1, w_step s o a s1 /\ w_run s1 os rs s'
    | _, _ => False
    end.
End Spec.
Arguments rop : clear implicits.
Arguments ranswer : clear implicits.
Arguments rstate : clear implicits.
Arguments wop : clear implicits.
Arguments wanswer : clear implicits.
