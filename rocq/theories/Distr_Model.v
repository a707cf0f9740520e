(** Model of Distributor, base/actions/distributor.h, distrubutor.tcc, for one thread.

    A linked list (linkedList.h, see LinkedList_Model.v) is the chain of its items from first, with their addresses, and the
    pointer last.  Items of the list of stages are on the stack of send().  A listener that is called gives its actions one by
    one; the stack of running calls of _finish and sendExitMsg is explicit. *)
From Verif Require Import Common Distr_Spec.

Record LL (A : Type) := mkL { items : list (nat * A); lastp : option nat }.
Arguments mkL {A}. Arguments items {A}. Arguments lastp {A}.
Definition ll_empty {A} : LL A := mkL [] None.
Definition last_id {A} (l : list (nat * A)) : option nat := match rev l with [] => None | e :: _ => Some (fst e) end.
(** linkedList.h:221-230: add; [Undef]: last points to an item that is not there any more *)
Definition ll_add {A} (i : nat) (x : A) (l : LL A) : outcome (LL A) :=
  match lastp l with
  | None => Ok (mkL [(i, x)] (Some i))
  | Some q => match last_id (items l) with Some r => if q =? r then Ok (mkL (items l ++ [(i, x)]) (Some i)) else Undef | None => Undef end
  end.
(** linkedList.h:183-188: insertFirst *)
Definition ll_first {A} (i : nat) (x : A) (l : LL A) : LL A := mkL ((i, x) :: items l) (match lastp l with None => Some i | s => s end).
Fixpoint cut {A} (i : nat) (l : list (nat * A)) : list (nat * A) := match l with [] => [] | e :: t => if i =? fst e then t else e :: cut i t end.
(** linkedList.h:232-242, 250-258, 260-269: erase; last is changed by removeFirst only *)
Definition ll_erase {A} (i : nat) (l : LL A) : LL A :=
  match items l with
  | e :: t => if i =? fst e then mkL t (match t with [] => None | _ => lastp l end) else mkL (cut i (items l)) (lastp l)
  | [] => l
  end.
(** linkedList.h:68-73: getNext: the item and the next address *)
Fixpoint ll_next {A} (i : nat) (l : list (nat * A)) : outcome (A * option nat) :=
  match l with
  | [] => Undef
  | e :: t => if i =? fst e then Ok (snd e, match t with [] => None | f :: _ => Some (fst f) end) else ll_next i t
  end.

(** distributor.h:333-351: Stage *)
Record stage := mkG { msg : nat; num : nat; pos : option nat; sender : option nat }.
(** a running _finish(sel), with the item of send() if it was called by send; a running sendExitMsg *)
Inductive frame := FSel (sel : nat) (item : option nat) | FExit (m : nat) (p : option nat).
(** distributor.h:369-373; exitMsgStage is never set, so it is left out *)
Record st := mkS { listeners : LL nat; stages : LL stage; frames : list frame; fresh : nat (** of nodes of listeners *); sfresh : nat (** of items on the stack *) }.
Definition init : st := mkS ll_empty ll_empty [] 0 0.
Definition first_id {A} (l : list (nat * A)) : option nat := match l with [] => None | e :: _ => Some (fst e) end.

(** distrubutor.tcc:139-148: findStage *)
Fixpoint findStage (sel : nat) (l : list (nat * stage)) : option (nat * stage) :=
  match l with [] => None | e :: t => if num (snd e) =? sel then Some e else findStage sel t end.
Fixpoint put_stage (i : nat) (g : stage) (l : list (nat * stage)) : list (nat * stage) :=
  match l with [] => [] | e :: t => if i =? fst e then (i, g) :: t else e :: put_stage i g t end.
(** distrubutor.tcc:113-136: the loop of _finish up to a call of a listener; an erased item makes every other turn *)
Fixpoint finishLoop (fuel sel : nat) (s : st) : outcome (option (nat * nat) * st) :=
  match findStage sel (items (stages s)) with
  | None => Ok (None, s)
  | Some (i, g) =>
      match pos g with
      | None =>
          match fuel with
          | O => NoFuel
          | S f => finishLoop f sel (mkS (listeners s) (ll_erase i (stages s)) (frames s) (fresh s) (sfresh s))
          end
      | Some p =>
          let! (ifc, nx) := ll_next p (items (listeners s)) in
          let g' := mkG (msg g) (num g) nx (sender g) in
          Ok (Some (ifc, msg g), mkS (listeners s) (mkL (put_stage i g' (items (stages s))) (lastp (stages s))) (frames s) (fresh s) (sfresh s))
      end
  end.
(** the frame goes on: it calls a listener or ends; an item of a frame that ends must not be in the list *)
Definition goOn (fr : frame) (rest : list frame) (s : st) : outcome (out * st) :=
  match fr with
  | FSel sel it =>
      let! (c, s) := finishLoop (length (items (stages s))) sel s in
      match c : option (nat * nat) with
      | Some (p, m) => Ok (Call p m, mkS (listeners s) (stages s) (fr :: rest) (fresh s) (sfresh s))
      | None =>
          let dead := match it with Some i => existsb (fun e => i =? fst e) (items (stages s)) | None => false end in
          if dead : bool then Undef else Ok (Done, mkS (listeners s) (stages s) rest (fresh s) (sfresh s))
      end
  (* distrubutor.tcc:157-165: finishCycle *)
  | FExit m None => Ok (Done, mkS (listeners s) (stages s) rest (fresh s) (sfresh s))
  | FExit m (Some p) =>
      let! (ifc, nx) := ll_next p (items (listeners s)) in
      Ok (Call ifc m, mkS (listeners s) (stages s) (FExit m nx :: rest) (fresh s) (sfresh s))
  end.
(** distrubutor.tcc:237-248: _stop *)
Fixpoint stopIds (sel : nat) (l : list (nat * stage)) : list nat :=
  match l with [] => [] | e :: t => if num (snd e) =? sel then fst e :: stopIds sel t else stopIds sel t end.
Definition stop_ (sel : nat) (l : LL stage) : LL stage := fold_left (fun l i => ll_erase i l) (stopIds sel (items l)) l.
(** distrubutor.tcc:45-51: positions at a removed listener go to the next one *)
Fixpoint skipAt (i : nat) (nx : option nat) (l : list (nat * stage)) : list (nat * stage) :=
  match l with
  | [] => []
  | (j, g) :: t => (j, match pos g with Some p => if p =? i then mkG (msg g) (num g) nx (sender g) else g | None => g end) :: skipAt i nx t
  end.
Fixpoint findIfc (p : nat) (l : list (nat * nat)) : option nat := match l with [] => None | e :: t => if snd e =? p then Some (fst e) else findIfc p t end.
Fixpoint countIfc (p : nat) (l : list (nat * nat)) : nat := match l with [] => 0 | e :: t => (if snd e =? p then 1 else 0) + countIfc p t end.

Definition exec (a : act) (s : st) : outcome (out * st) :=
  let l := listeners s in
  match a with
  (* distrubutor.tcc:16-20 *)
  | Add p => let! l := ll_add (fresh s) p l in Ok (Nothing, mkS l (stages s) (frames s) (S (fresh s)) (sfresh s))
  (* distrubutor.tcc:22-26 *)
  | PriorityAdd p => Ok (Nothing, mkS (ll_first (fresh s) p l) (stages s) (frames s) (S (fresh s)) (sfresh s))
  (* distrubutor.tcc:28-37 *)
  | IsAdded p => Ok (Number (countIfc p (items l)), s)
  (* distrubutor.tcc:39-64 *)
  | Remove p =>
      match findIfc p (items l) with
      | None => Ok (Removed false, s)
      | Some i =>
          let! (x, nx) := ll_next i (items l) in
          Ok (Removed true, mkS (ll_erase i l) (mkL (skipAt i nx (items (stages s))) (lastp (stages s))) (frames s) (fresh s) (sfresh s))
      end
  (* distrubutor.tcc:66-72 *)
  | RemoveAll => Ok (Nothing, mkS ll_empty ll_empty (frames s) (fresh s) (sfresh s))
  (* distrubutor.tcc:226-230 *)
  | Size => Ok (Number (length (items l)), s)
  (* distrubutor.tcc:74-88 *)
  | Send snd_ m sel =>
      let! g := ll_add (sfresh s) (mkG m sel (first_id (items l)) snd_) (stages s) in
      goOn (FSel sel (Some (sfresh s))) (frames s) (mkS l g (frames s) (fresh s) (S (sfresh s)))
  (* distrubutor.tcc:100-104 *)
  | Finish sel => goOn (FSel sel None) (frames s) s
  (* distrubutor.tcc:232-236 *)
  | Stop sel => Ok (Nothing, mkS l (stop_ sel (stages s)) (frames s) (fresh s) (sfresh s))
  (* distrubutor.tcc:150-179 *)
  | Exit m => goOn (FExit m (first_id (items l))) (frames s) s
  | Return => match frames s with [] => Throw | f :: r => goOn f r s end
  (* distrubutor.tcc:126-132: an exception of a listener stops the stage and goes to the caller; of the exit message: the other
     listeners are called by the destructor, left out *)
  | Raise =>
      match frames s with
      | FSel sel it :: r =>
          let g := stop_ sel (stages s) in
          let dead := match it with Some i => existsb (fun e => i =? fst e) (items g) | None => false end in
          if dead then Undef else Ok (Thrown, mkS l g r (fresh s) (sfresh s))
      | _ => Throw
      end
  end.
Fixpoint run (l : list act) (s : st) : outcome (list out * st) :=
  match l with [] => Ok ([], s) | a :: t => let! (x, s) := exec a s in let! (xs, s) := run t s in Ok (x :: xs, s) end.
