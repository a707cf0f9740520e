(** The values the binary JSON form can carry, independent of the code. *)
From Verif Require Import Common Json_Spec.
Local Open Scope N_scope.

Definition name_ok (k : list N) : Prop := bytes_ok k /\ N.of_nat (length k) < 2 ^ 64.

(** no arrays, no positive or floating point numbers, and of strings only the empty one and
    those of the table that writer and reader share; the members of objects in order of their
    names *)
Fixpoint portable (tab : list (list N)) (v : json) : Prop :=
  match v with
  | JNull | JBool _ => True
  | JInt z => (- 2 ^ 63 < z <= 0)%Z
  | JFloat _ | JArr _ => False
  | JStr s => s = [] \/ In s tab
  | JObj m =>
      increasing (map fst m) /\
      (fix all m := match m with
                    | [] => True
                    | (k, x) :: r => name_ok k /\ portable tab x /\ all r
                    end) m
  end.
