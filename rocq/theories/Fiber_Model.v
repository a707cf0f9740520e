(** Model of Fiber, mt/linux/fiber.cpp, in one thread whose master fiber has been created.

    A step is an operation of the fiber that runs.  [run] is the fiber on whose stack the processor is, [cur] the thread variable
    currentFiber.  A context has the flags of FiberContext; a flag that was never written is [None] and reading it is undefined.
    [Throw] is the end of the program by std::unexpected (wakeUp is declared throw()).  Simplified: malloc and swapcontext do not
    fail; starting an active fiber and operations on destroyed fibers are not done; stacks are the places where fibers are suspended. *)
From Verif Require Import Common Fiber_Spec.

(** fiber.cpp:42-55 *)
Record ctxr := mkC { stopS : option bool; termS : option bool; reas : option nat }.
(** the operation in which a fiber is suspended *)
Inductive place := InStart | InWake | InSleep | InDestr (f : nat).
(** fiber.h:211-218; exc: exitException is set; gone: destroyed *)
Record fiber := mkF { ctx : option ctxr; caller : option nat; exc : bool; gone : bool; plc : place }.
Record st := mkS { fib : nat -> fiber; cur : nat; run : nat; todo : option nat }.
(** fiber.cpp:263-276: the context of the master is not initialised; [z]: malloc returned zeroed memory *)
Definition init (z : bool) : st :=
  mkS (fun f => mkF (if Nat.eqb f 0 then Some (if z then mkC (Some false) (Some false) (Some 0) else mkC None None None) else None) None false false InStart) 0 0 None.

Definition put (s : st) (f : nat) (x : fiber) : st := mkS (fun g => if Nat.eqb g f then x else fib s g) (cur s) (run s) (todo s).
Definition setCtx s f c := let x := fib s f in put s f (mkF c (caller x) (exc x) (gone x) (plc x)).
Definition setCaller s f c := let x := fib s f in put s f (mkF (ctx x) c (exc x) (gone x) (plc x)).
Definition setExc s f e := let x := fib s f in put s f (mkF (ctx x) (caller x) e (gone x) (plc x)).
Definition setGone s f := let x := fib s f in put s f (mkF (ctx x) (caller x) (exc x) true (plc x)).
Definition setPlc s f p := let x := fib s f in put s f (mkF (ctx x) (caller x) (exc x) (gone x) p).
Definition goto s f := mkS (fib s) (cur s) f (todo s).
Definition setCur s f := mkS (fib s) f (run s) (todo s).
Definition setTodo s t := mkS (fib s) (cur s) (run s) t.
Definition also (e : list ev) (x : outcome (list ev * st)) : outcome (list ev * st) :=
  match x with Ok y => Ok (fst y ++ e, snd y) | o => o end.

(** fiber.cpp:211-228: the fiber [to] goes on after its swapcontext; then what follows in the operation it is in *)
Definition resume (s : st) (to : nat) : outcome (list ev * st) :=
  let s := goto s to in
  let last := cur s in
  match ctx (fib s last) with
  | None => Undef
  | Some c =>
      match termS c with
      | None => Undef
      | Some t =>
          let s := if t then setCtx s last None else s in
          let e := if t then [EFree last] else [] in
          let s := setCur s to in
          match ctx (fib s to) with
          | None => match plc (fib s to) with InSleep => Undef | InDestr g => Ok (e, setTodo s (Some g)) | _ => Ok (e, s) end
          | Some d =>
              match stopS d with
              | None => Undef
              | Some true =>
                  match plc (fib s to) with
                  | InWake => Throw
                  | InDestr g => Ok (EGone g :: EStopped to :: e, setGone s g)   (* fiber.cpp:76-78 *)
                  | _ => Ok (EStopped to :: e, s)
                  end
              | Some false =>
                  match plc (fib s to) with
                  | InSleep => Ok (ERet to (reas d) :: e, s)                     (* fiber.cpp:259 *)
                  | InDestr g => Ok (e, setTodo s (Some g))
                  | _ => Ok (e, s)
                  end
              end
          end
      end
  end.
(** fiber.cpp:118-166, 82-92 *)
Definition start (s : st) (f : nat) : outcome (list ev * st) :=
  match ctx (fib s f) with
  | Some _ => Ok ([], s)
  | None =>
      if gone (fib s f) then Ok ([], s) else
      let fb := cur s in
      let s := setCtx s f (Some (mkC (Some false) (Some false) (Some 0))) in
      let s := setCaller s f (Some fb) in
      let s := setCur s f in
      Ok ([EStart (run s) f], goto (setPlc s fb InStart) f)
  end.
(** fiber.cpp:177-188, 196-206 *)
Definition wakeAt (p : place) (s : st) (f r : nat) : outcome (list ev * st) :=
  if gone (fib s f) then Ok ([], s) else
  if Nat.eqb (cur s) f then Ok ([EWakeNo (run s) f], s) else
  match ctx (fib s f) with
  | None => Ok ([EWakeNo (run s) f], s)
  | Some c =>
      let s := setCaller s f (Some (cur s)) in
      let s := setCtx s f (Some (mkC (stopS c) (termS c) (Some r))) in
      also [EWake (run s) f r] (resume (setPlc s (cur s) p) f)
  end.
Definition wakeUp := wakeAt InWake.
(** fiber.cpp:168-175 *)
Definition stopAt (p : place) (s : st) (f : nat) : outcome (list ev * st) :=
  if gone (fib s f) then Ok ([], s) else
  match ctx (fib s f) with
  | None => Ok ([], s)
  | Some c => also [EStop (run s) f] (wakeAt p (setCtx s f (Some (mkC (Some true) (termS c) (reas c)))) f 0)
  end.
Definition stop := stopAt InWake.
Definition switchSleep (s : st) (b : nat) : outcome (list ev * st) :=
  let a := cur s in
  if Nat.eqb a b then match ctx (fib s a) with Some c => Ok ([ENoSleep (run s) (reas c)], s) | None => Undef end
  else also [ESleep (run s) b] (resume (setPlc s a InSleep) b).
(** fiber.cpp:250-260 *)
Definition sleep (s : st) : outcome (list ev * st) :=
  match caller (fib s (cur s)) with
  | None => switchSleep s 0
  | Some b =>
      if gone (fib s b) then Undef else
      match ctx (fib s b) with None => switchSleep s 0 | Some _ => switchSleep s b end
  end.
(** fiber.cpp:92-107, 150: the function of the fiber ends; the link goes to the context of the master *)
Definition exit_ (s : st) (bad : bool) : outcome (list ev * st) :=
  if Nat.eqb (run s) 0 then Ok ([], s) else
  let c := cur s in
  match ctx (fib s c) with
  | None => Undef
  | Some x =>
      let s := if bad then setExc s c true else s in
      also [EExit (run s) bad] (resume (setCtx s c (Some (mkC (stopS x) (Some true) (reas x)))) 0)
  end.
(** fiber.cpp:230-237, 239-241 *)
Definition checkState (s : st) (f : nat) : outcome (list ev * st) :=
  if gone (fib s f) then Ok ([], s) else
  if exc (fib s f) && Nat.eqb (cur s) 0 then Ok ([ECheckExc f], setExc s f false)
  else Ok ([ECheck f (match ctx (fib s f) with Some _ => true | None => false end)], s).
(** fiber.cpp:63-79: one pass of the loop; [unw]: an exception is in flight, fibers cannot be switched (200) and the loop does not end *)
Definition destroy (s : st) (f : nat) (unw : bool) : outcome (list ev * st) :=
  if Nat.eqb f 0 || Nat.eqb f (run s) || gone (fib s f) then Ok ([], s) else
  if exc (fib s f) && Nat.eqb (cur s) 0 && negb unw then Ok ([EGone f], setGone s f) else
  match ctx (fib s f) with
  | None => Ok ([EGone f], setGone s f)
  | Some _ => if unw then NoFuel else stopAt (InDestr f) s f
  end.

Definition step (s : st) (o : op) : outcome (list ev * st) :=
  match todo s with
  | Some f => destroy (setTodo s None) f false
  | None =>
      match o with
      | OStart f => start s f
      | OWake f r => wakeUp s f r
      | OStop f => stop s f
      | OSleep => sleep s
      | OExit bad => exit_ s bad
      | OCurrent => Ok ([ECur (cur s)], s)
      | OCheck f => checkState s f
      | ODestroy f unw => destroy s f unw
      end
  end.
Fixpoint runOps (l : list op) (h : list ev) (s : st) : outcome (list ev * st) :=
  match l with
  | [] => Ok (h, s)
  | o :: r => match step s o with Ok x => runOps r (fst x ++ h) (snd x) | Throw => Throw | Undef => Undef | NoFuel => NoFuel end
  end.
(** programs that do not destroy fibers *)
Definition keeps (o : op) : Prop := match o with ODestroy _ _ => False | _ => True end.
