(** Specification of counted pointers.  A program has pointer variables, some of
    them inside objects; a table says for each variable whether it exists, in
    which object it is and which object it refers to. *)
From Verif Require Import Common.

Record pvar := PV { pExists : bool; pInside : option nat; pRefers : option nat }.

Inductive pop :=
| PNull | PNew (members : nat) | PCopy (j : nat) | PMoveNew (j : nat)
| PAssign (i j : nat) | PMove (i j : nat) | PClear (i : nat) | PDrop (i : nat)
| PSwap (i j : nat) | PCreate (i members : nat) | PShared (i : nat).

Definition pvalue (t : list pvar) (i : nat) : option nat :=
  match nth_error t i with Some v => pRefers v | None => None end.
Definition pset (t : list pvar) (i : nat) (p : option nat) : list pvar :=
  match nth_error t i with Some v => upd t i (PV (pExists v) (pInside v) p) | None => t end.

(** the table an operation asks for, before objects nobody refers to go away;
    [n] objects were created before *)
Definition pwanted (n : nat) (o : pop) (t : list pvar) : list pvar :=
  match o with
  | PNull => t ++ [PV true None None]
  | PNew m => t ++ repeat (PV true (Some n) None) m ++ [PV true None (Some n)]
  | PCopy j => t ++ [PV true None (pvalue t j)]
  | PMoveNew j => pset t j None ++ [PV true None (pvalue t j)]
  | PAssign i j => pset t i (pvalue t j)
  | PMove i j => if i =? j then t else pset (pset t i (pvalue t j)) j None
  | PClear i => pset t i None
  | PDrop i => match nth_error t i with Some v => upd t i (PV false (pInside v) None) | None => t end
  | PSwap i j => pset (pset t i (pvalue t j)) j (pvalue t i)
  | PCreate i m => pset t i (Some n) ++ repeat (PV true (Some n) None) m
  | PShared _ => t
  end.

Definition pcreates (o : pop) : bool := match o with PNew _ | PCreate _ _ => true | _ => false end.

(** somebody refers to the object *)
Definition referred (t : list pvar) (x : nat) : Prop :=
  exists i v, nth_error t i = Some v /\ pExists v = true /\ pRefers v = Some x.

(** [t] is the table [w] without the variables inside of destroyed objects *)
Definition without (gone : list nat) (w t : list pvar) : Prop :=
  length t = length w /\
  forall i v, nth_error w i = Some v ->
    match pInside v with
    | Some x => (In x gone -> exists v', nth_error t i = Some v' /\ pExists v' = false) /\
                (~ In x gone -> nth_error t i = Some v)
    | None => nth_error t i = Some v
    end.

(** what a program may do: use variables that exist, end the life of variables
    that are not inside an object.  An assignment is safe when it cannot destroy
    the two variables themselves: they are not members, or the target is null,
    or another variable refers to the same object. *)
Definition pthere (t : list pvar) (i : nat) : Prop :=
  exists v, nth_error t i = Some v /\ pExists v = true.
Definition pouter (t : list pvar) (i : nat) : Prop :=
  exists v, nth_error t i = Some v /\ pExists v = true /\ pInside v = None.
Definition psafe (t : list pvar) (i j : nat) : Prop :=
  (pouter t i /\ pouter t j) \/ pvalue t i = None \/
  exists k, k <> i /\ pthere t k /\ pvalue t k = pvalue t i.

Definition pallowed (o : pop) (t : list pvar) : Prop :=
  match o with
  | PNull | PNew _ => True
  | PCopy j | PMoveNew j | PClear j | PShared j => pthere t j
  | PAssign i j => i <> j /\ pthere t i /\ pthere t j /\ psafe t i j
  | PMove i j => pthere t i /\ pthere t j /\ (i = j \/ psafe t i j)
  | PDrop i => pouter t i
  | PSwap i j => pthere t i /\ pthere t j
  | PCreate i _ => pthere t i /\ pvalue t i = None
  end.

(** the answer of isShared *)
Definition panswer (o : pop) (t : list pvar) (a : option bool) : Prop :=
  match o with
  | PShared i =>
      exists b, a = Some b /\
      (b = true <-> exists k x, k <> i /\ pthere t k /\ pvalue t i = Some x /\ pvalue t k = Some x)
  | _ => a = None
  end.

(** the objects that are gone are exactly those nobody refers to, each once *)
Definition settled (n : nat) (t : list pvar) (gone : list nat) : Prop :=
  NoDup gone /\ (forall x, In x gone -> x < n) /\
  forall x, x < n -> (In x gone <-> ~ referred t x).

(** [phistory ops n t gone l]: the operations [ops], done from the empty table,
    may end in the table [t] with [n] objects created and [gone] destroyed, and
    give the answers [l] *)
Inductive phistory : list pop -> nat -> list pvar -> list nat -> list (option bool) -> Prop :=
| ph_nil : phistory [] 0 [] [] []
| ph_step ops n t gone l op n' t' gone' a :
    phistory ops n t gone l ->
    pallowed op t ->
    n' = n + (if pcreates op then 1 else 0) ->
    without gone' (pwanted n op t) t' ->
    settled n' t' gone' ->
    (forall x, In x gone -> In x gone') ->
    panswer op t a ->
    phistory (ops ++ [op]) n' t' gone' (l ++ [a]).
