(** Model of NamedEnum, base/namedEnum.h.

    Both orders are arrays of indexes sorted by HeapSort (Heap_Model.v): the containers give the sort the definition of an index
    and swap indexes (namedEnum.h:66-94).  The enumeration type is an integer. *)
From Verif Require Import Common NamedEnum_Spec Heap_Model.

Inductive cmpr := CLess | CEqual | CGreater.
(** compare.h:16-25: swapCompareResult *)
Definition swapc (c : cmpr) : cmpr := match c with CLess => CGreater | CEqual => CEqual | CGreater => CLess end.
(** arrayt.h:776-781 *)
Definition compareItems (a b : Z) : cmpr := if (a =? b)%Z then CEqual else if (a <? b)%Z then CLess else CGreater.
(** arrayt.h:770-775, 787-791: forEach with CmpFunctor, the other array is not shorter *)
Fixpoint cmpLoop (a b : list Z) (cr : cmpr) : outcome cmpr :=
  match a with
  | [] => Ok cr
  | x :: a => match b with
              | [] => Undef
              | y :: b => match compareItems x y with CEqual => cmpLoop a b CEqual | c => Ok c end
              end
  end.
(** arrayt.h:804-808 *)
Definition compare1 (a b : list Z) : outcome cmpr :=
  match a with
  | [] => Ok (match b with [] => CEqual | _ => CLess end)
  | _ => let! cr := cmpLoop a b CEqual in
         Ok (match cr with CEqual => if length a <? length b then CLess else CEqual | c => c end)
  end.
(** arrayt.h:799-809: compare *)
Definition compare (a b : list Z) : outcome cmpr :=
  if length b <? length a then let! c := compare1 b a in Ok (swapc c) else compare1 a b.
(** arrayt.h:212-214, std::less *)
Definition strLess (a b : list Z) : bool := match compare a b with Ok CLess => true | _ => false end.

(** namedEnum.h:59-60 and the orders in the definitions *)
Record ne := mkNE { items : list defn; byName : list nat; byEnum : list nat }.
(** namedEnum.h:72, 87; std::less of what the container gives.  The indexes are those of definitions, because the sort only
    swaps them: the default is never used *)
Definition nameLess (l : list defn) (i j : nat) : bool := strLess (snd (nth i l (0%Z, []))) (snd (nth j l (0%Z, []))).
Definition enumLess (l : list defn) (i j : nat) : bool := (fst (nth i l (0%Z, [])) <? fst (nth j l (0%Z, [])))%Z.
(** namedEnum.h:69-71, 84-86, 96-108, 132-138 *)
Definition construct (l : list defn) : outcome ne :=
  let! a := sort (nameLess l) (seq 0 (length l)) in
  let! b := sort (enumLess l) (seq 0 (length l)) in
  Ok (mkNE l a b).

Definition nth_o {A} (l : list A) (i : nat) : outcome A := match nth_error l i with Some x => Ok x | None => Undef end.
(** namedEnum.h:147-163: find *)
Fixpoint findLoop (fuel : nat) (e : ne) (name : list Z) (h t : nat) : outcome (option Z) :=
  if h <? t then
    match fuel with
    | O => NoFuel
    | S f =>
        let c := (h + t) / 2 in
        let! i := nth_o (byName e) c in
        let! d := nth_o (items e) i in
        let! cr := compare name (snd d) in
        match cr with
        | CLess => findLoop f e name h c
        | CGreater => findLoop f e name (c + 1) t
        | CEqual => Ok (Some (fst d))
        end
    end
  else Ok None.
Definition find (e : ne) (name : list Z) : outcome (option Z) := findLoop (length (items e)) e name 0 (length (items e)).
(** namedEnum.h:140-145: operator[] of a name *)
Definition valueOf (e : ne) (name : list Z) : outcome Z := let! r := find e name in match r : option Z with Some v => Ok v | None => Throw end.
(** namedEnum.h:166-179: operator[] of a value *)
Fixpoint nameLoop (fuel : nat) (e : ne) (v : Z) (h t : nat) : outcome (list Z) :=
  if h <? t then
    match fuel with
    | O => NoFuel
    | S f =>
        let c := (h + t) / 2 in
        let! i := nth_o (byEnum e) c in
        let! d := nth_o (items e) i in
        if (v <? fst d)%Z then nameLoop f e v h c
        else if (fst d <? v)%Z then nameLoop f e v (c + 1) t
        else Ok (snd d)
    end
  else Ok [].
Definition nameOf (e : ne) (v : Z) : outcome (list Z) := nameLoop (length (items e)) e v 0 (length (items e)).
(** namedEnum.h:184-195: toString *)
Definition toString (e : ne) (sep : list Z) : list Z :=
  match items e with
  | [] => []
  | d :: t => fold_left (fun acc d => acc ++ sep ++ snd d) t (snd d)
  end.
