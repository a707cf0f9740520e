(** Model of the registry of services:
    /repo/src/lightspeed/base/framework/services.cpp and iservices.h.
    The map (Map, map.h) is a function from keys to values, and a linked list
    (LinkedList, see LinkedList_Model) is the list of its values; only
    insertFirst, eraseFirst, erase, getFirst and empty of it are used, and none of these
    reads the pointer to the last item. *)
From Verif Require Import Common Svc_Spec.

(** services.h:19-22 *)
Definition st := nat -> option (list nat).
Definition init : st := fun _ => None.
Definition set (s : st) (t : nat) (x : option (list nat)) : st := fun a => if a =? t then x else s a.

(** services.cpp:20-27; linkedList.h:233-248 *)
Definition removeTop (t : nat) (s : st) : st :=
  match s t with
  | None => s
  | Some stack =>
      let stack' := match stack with [] => [] | _ :: r => r end in
      match stack' with
      | [] => set s t None
      | _ => set s t (Some stack')
      end
  end.

(** services.cpp:10-18 *)
Definition addService (t : nat) (o : option nat) (s : st) : st :=
  match o with
  | None => removeTop t s
  | Some i =>
      let stack := match s t with None => [] | Some k => k end in
      set s t (Some (i :: stack))
  end.

(** services.cpp:34-42: the loop over the stack; linkedList.h:250-269 *)
Fixpoint eraseFound (i : nat) (stack : list nat) : list nat :=
  match stack with
  | [] => []
  | x :: r => if x =? i then r else x :: eraseFound i r
  end.

(** services.cpp:29-43 *)
Definition removeService (t : nat) (o : option nat) (s : st) : st :=
  match o with
  | None => removeTop t s
  | Some i =>
      match s t with
      | None => s
      | Some stack => set s t (Some (eraseFound i stack))
      end
  end.

(** services.cpp:45-57: the object whose interface is asked for, None is the null
    result; linkedList.h:272-276, 286-290: getFirst of an empty list throws *)
Definition proxyInterface (t : nat) (s : st) : outcome (option nat) :=
  match s t with
  | None => Ok None
  | Some [] => Throw
  | Some (i :: _) => Ok (Some i)
  end.

(** iservices.h:86-96, 104-114: the loop over getInterfaceType(idx), which returns
    the null type after the last one; [ty] is that function of the object *)
Fixpoint loop (f : nat) (call : nat -> st -> st) (ty : nat -> option nat) (idx : nat) (s : st) : outcome st :=
  match f with
  | O => NoFuel
  | S f' =>
      match ty idx with
      | None => Ok s
      | Some t => loop f' call ty (S idx) (call t s)
      end
  end.

Definition exec1 (a : op) (s : st) : outcome st :=
  match a with
  | Add t o => Ok (addService t o s)
  | Rem t => Ok (removeTop t s)
  | RemObj t o => Ok (removeService t o s)
  | AddAll o ts => loop (S (length ts)) (fun t => addService t (Some o)) (nth_error ts) 0 s
  | RemAll o ts => loop (S (length ts)) (fun t => removeService t (Some o)) (nth_error ts) 0 s
  end.
Fixpoint run (l : list op) (s : st) : outcome st :=
  match l with
  | [] => Ok s
  | a :: l' => let! s' := exec1 a s in run l' s'
  end.
(** the answer to a query after a history *)
Definition query (l : list op) (t : nat) : outcome (option nat) :=
  let! s := run l init in proxyInterface t s.
