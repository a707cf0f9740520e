(** What a handler of TCPServer connections and the callers of the wake-up object rely on (ITCPServer.h:88-105, 116-155).
    Histories of one connection are lists of events, newest first. *)
From Verif Require Import Common.
Open Scope N_scope.

(** answers of the handler *)
Inductive cmd := CRemove | CRead | CWrite | CReadWrite | CWake.
(** calls of the handler; [CbUser o] has the reason it is given ([None]: a value nobody has passed) *)
Inductive cb := CbData | CbWrite | CbTimeout | CbUser (o : option nat) | CbDisc.
Inductive ev :=
| EWake (r : nat)      (* somebody calls wakeUp(r) on the wake-up object of the connection *)
| EWoken               (* such a call has returned *)
| ECb (c : cb)         (* the handler is called *)
| ERet (c : cmd)       (* the handler (first: onAccept) returns *)
| ENoExec              (* no thread could be given to the connection *)
| EFree.               (* the connection is removed and its context released *)

Definition reads (c : cmd) : bool := match c with CRead | CReadWrite => true | _ => false end.
Definition writes (c : cmd) : bool := match c with CWrite | CReadWrite => true | _ => false end.
Definition asked (c : cmd) (x : cb) : bool :=
  match x with
  | CbData | CbDisc => reads c
  | CbWrite => writes c
  | CbTimeout => reads c || writes c
  | CbUser _ => match c with CWake => true | _ => false end
  end.
(** the protocol between the server and the handler: one call at a time, only calls the last answer has asked for, nothing
    after the end *)
Inductive phase := PIn | PWait (c : cmd) | PBye | PGone.
Fixpoint proto (h : list ev) : option phase :=
  match h with
  | [] => Some PIn                              (* onAccept runs *)
  | EWake _ :: h | EWoken :: h | ENoExec :: h => proto h
  | ERet c :: h => match proto h with Some PIn => Some (PWait c) | _ => None end
  | ECb CbDisc :: h => match proto h with Some (PWait c) => if asked c CbDisc then Some PBye else None | _ => None end
  | ECb x :: h => match proto h with Some (PWait c) => if asked c x then Some PIn else None | _ => None end
  | EFree :: h => match proto h with Some (PWait _) | Some PBye => Some PGone | _ => None end
  end.
(** a wakeUp call has returned and the handler has not been called for it since *)
Fixpoint pending (h : list ev) : bool :=
  match h with
  | [] => false
  | EWoken :: _ => true
  | ECb (CbUser _) :: _ => false
  | _ :: h => pending h
  end.
Fixpoint nWake (h : list ev) : nat :=
  match h with [] => 0 | EWake _ :: h => S (nWake h) | _ :: h => nWake h end%nat.
Fixpoint nUser (h : list ev) : nat :=
  match h with [] => 0 | ECb (CbUser _) :: h => S (nUser h) | _ :: h => nUser h end%nat.
(** each reason given to the handler was passed by an earlier call *)
Fixpoint reasons (h : list ev) : Prop :=
  match h with
  | [] => True
  | ECb (CbUser o) :: h => (exists r, o = Some r /\ In (EWake r) h) /\ reasons h
  | _ :: h => reasons h
  end.
(** what the last event that is not a wake-up was *)
Fixpoint lastOwn (h : list ev) : option ev :=
  match h with
  | [] => None
  | EWake _ :: h | EWoken :: h => lastOwn h
  | e :: _ => Some e
  end.
(** a connection is removed only when the handler says so, after the call that the peer has closed it, or without a thread *)
Fixpoint removals (h : list ev) : Prop :=
  match h with
  | [] => True
  | EFree :: h => match lastOwn h with Some (ERet CRemove) | Some (ECb CbDisc) | Some ENoExec => True | _ => False end /\ removals h
  | _ :: h => removals h
  end.
