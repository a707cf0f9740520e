(** Specification for JSON values in memory: the object interface, equality and paths. *)
From Verif Require Import Common Json_Spec.
Local Open Scope N_scope.

(** ** Objects as finite maps *)

(** operations; [None] is a null pointer *)
Inductive oop :=
| OAdd (k : list N) (v : option json)       (** add under a name; a null pointer erases *)
| OReplace (k : list N) (v : option json)   (** set; a null pointer erases *)
| OErase (k : list N)
| OClear
| OGet (k : list N)
| OLength
| OList.
Inductive oans :=
| ADone
| AValue (v : option json)
| ANumber (n : N)
| AMembers (m : list (list N * json)).
Definition omap := list N -> option json.
Definition oset (f : omap) (k : list N) (v : option json) : omap :=
  fun k' => if list_eq_dec N.eq_dec k' k then v else f k'.
(** [l] is the list of members of the map, in order *)
Definition lists (f : omap) (l : list (list N * json)) : Prop :=
  increasing (map fst l) /\ forall k, find k l = f k.
(** what an operation does to the map, and its answer; an added member never replaces
    another one *)
Inductive osem (f : omap) : oop -> omap -> oans -> Prop :=
| os_add_nil k : osem f (OAdd k None) (oset f k None) ADone
| os_add_old k v w : f k = Some w -> osem f (OAdd k (Some v)) f ADone
| os_add_new k v : f k = None -> osem f (OAdd k (Some v)) (oset f k (Some v)) ADone
| os_replace k v : osem f (OReplace k v) (oset f k v) (AValue (f k))
| os_erase k : osem f (OErase k) (oset f k None) ADone
| os_clear : osem f OClear (fun _ => None) ADone
| os_get k : osem f (OGet k) f (AValue (f k))
| os_length l : lists f l -> osem f OLength f (ANumber (N.of_nat (length l)))
| os_list l : lists f l -> osem f OList f (AMembers l).
Inductive ohist : omap -> list oop -> list oans -> omap -> Prop :=
| oh_nil f g : (forall k, f k = g k) -> ohist f [] [] g
| oh_cons f op f1 a ops l g : osem f op f1 a -> ohist f1 ops l g -> ohist f (op :: ops) (a :: l) g.
(** the names an operation mentions *)
Definition oname_ok (op : oop) : Prop :=
  match op with OAdd k _ | OReplace k _ | OErase k | OGet k => bytes_ok k | _ => True end.

(** ** Paths *)
Inductive step := Idx (i : N) | Key (k : list N).
(** the value at the end of the steps *)
Fixpoint locate (v : json) (p : list step) : option json :=
  match p with
  | [] => Some v
  | Idx i :: p => match v with JArr l => match nth_error l (N.to_nat i) with Some w => locate w p | None => None end | _ => None end
  | Key k :: p => match v with JObj m => match find k m with Some w => locate w p | None => None end | _ => None end
  end.
Definition step_ok (s : step) : Prop := match s with Idx _ => True | Key k => bytes_ok k end.

(** an address range *)
Definition disjoint (a n b m : N) : Prop := a + n <= b \/ b + m <= a.
