(** Model of CmdLineIterator: /repo/src/lightspeed/base/framework/cmdLineIterator.cpp.
    Numbers (naturals) do not overflow.  An argument (ConstStrW) is the list of its
    characters; [z] says whether the character after the last one can be read and
    is 0, as it is for the arguments of a program. *)
From Verif Require Import Common CmdLine_Spec.

(** arrayt.h:61-63, flatArray.h:81: operator[] does not check the index *)
Definition at_ (z : bool) (a : str) (i : nat) : outcome nat :=
  match nth_error a i with
  | Some c => Ok c
  | None => if z && (i =? length a) then Ok 0 else Undef
  end.
(** arrayt.h:267-272 *)
Definition mid (a : str) (p n : nat) : str :=
  if length a <=? p then [] else firstn (if length a <? p + n then length a - p else n) (skipn p a).
(** arrayt.h:285-288 *)
Definition offset {X} (a : list X) (p : nat) : list X := skipn (if length a <? p then length a else p) a.

(** cmdLineIterator.h:39-40 *)
Record st := mkSt { argPos : nat; charPos : nat }.
(** cmdLineIterator.cpp:9-13 *)
Definition start (offs : nat) : st := mkSt offs 0.

(** cmdLineIterator.cpp:56-59 *)
Definition hasItems (args : list str) (s : st) : bool := argPos s <? length args.

(** cmdLineIterator.cpp:31-54; the argument is read only when hasItems *)
Definition peek (z : bool) (args : list str) (s : st) : outcome item :=
  if negb (hasItems args s) then Throw
  else
    let a := nth (argPos s) args [] in
    if charPos s =? 0 then
      let len := length a in
      let! c0 := at_ z a 0 in
      if (c0 =? dash) && (1 <? len) then
        let! c1 := at_ z a 1 in
        if c1 =? dash then Ok (Long (offset a 2)) else Ok (Short (mid a 1 1))
      else Ok (Text a)
    else Ok (Short (mid a (charPos s) 1)).

(** cmdLineIterator.cpp:15-29 *)
Definition getNext (z : bool) (args : list str) (s : st) : outcome (item * st) :=
  let! ret := peek z args s in
  match ret with
  | Short _ =>
      let cp := if charPos s =? 0 then charPos s + 2 else charPos s + 1 in
      if length (nth (argPos s) args []) <=? cp then Ok (ret, mkSt (argPos s + 1) 0) else Ok (ret, mkSt (argPos s) cp)
  | _ => Ok (ret, mkSt (argPos s + 1) 0)
  end.

(** cmdLineIterator.cpp:72-76 *)
Definition peekText (args : list str) (s : st) : outcome str :=
  if negb (hasItems args s) then Throw else Ok (offset (nth (argPos s) args []) (charPos s)).
(** cmdLineIterator.cpp:78-84 *)
Definition getNextText (args : list str) (s : st) : outcome (str * st) :=
  let! r := peekText args s in Ok (r, mkSt (argPos s + 1) 0).
(** cmdLineIterator.cpp:86-90 *)
Definition getRemainArgs (args : list str) (s : st) : list str := offset args (argPos s).

(** cmdLineIterator.cpp:61-64, 66-70 *)
Definition equalTo (s o : st) : bool := (argPos s =? argPos o) && (charPos s =? charPos o).
Definition lessThan (s o : st) : bool := (argPos s <? argPos o) || ((argPos s =? argPos o) && (charPos s <? charPos o)).

Definition exec (z : bool) (args : list str) (o : op) (s : st) : outcome (res * st) :=
  match o with
  | Next => let! (i, s') := getNext z args s in Ok (RItem i, s')
  | Peek => let! i := peek z args s in Ok (RItem i, s)
  | NextText => let! (t, s') := getNextText args s in Ok (RText t, s')
  | PeekText => let! t := peekText args s in Ok (RText t, s)
  | Remain => Ok (RArgs (getRemainArgs args s), s)
  | Has => Ok (RBool (hasItems args s), s)
  end.
Fixpoint execs (z : bool) (args : list str) (l : list op) (s : st) : outcome (list res * st) :=
  match l with
  | [] => Ok ([], s)
  | o :: l' => let! (r, s') := exec z args o s in let! (rs, s'') := execs z args l' s' in Ok (r :: rs, s'')
  end.

(** the usual loop: while (iter.hasItems()) ... iter.getNext() *)
Fixpoint readAll (f : nat) (z : bool) (args : list str) (s : st) : outcome (list item) :=
  match f with
  | O => NoFuel
  | S f' => if hasItems args s then let! (i, s') := getNext z args s in let! l := readAll f' z args s' in Ok (i :: l)
            else Ok []
  end.
