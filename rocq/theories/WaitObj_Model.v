(** Model of LinuxNetWaitingObj, base/linux/linuxNetWaitingObj.cpp, over the set of descriptors of FdSelect_Model.
    A resource is its address (0: NULL); [socks] gives its sockets (getSocket(0), getSocket(1), ... up to -1).  The time is absolute. *)
From Verif Require Import Common FdSelect_Model WaitObj_Spec.
Open Scope Z_scope.

(** linuxNetWaitingObj.h:33-35; [ret]: retValue (None: not initialised) *)
Record wst := mkWt { fs : st; loadNext : bool; ret : option (Z * Z) }.
(** linuxNetWaitingObj.cpp:14-16; [i], [o]: the wake-up pipe *)
Definition start (i o : Z) : wst := mkWt (enableWakeUp init true i o) false None.
(** linuxNetWaitingObj.cpp:22-32 *)
Definition add (socks : Z -> list Z) (s : wst) (r m : Z) (t : option Z) : wst :=
  mkWt (fold_left (fun f k => set_ f (mkI k m r t)) (socks r) (fs s)) (loadNext s) (ret s).
(** linuxNetWaitingObj.cpp:34-42 *)
Definition remove (socks : Z -> list Z) (s : wst) (r : Z) : wst :=
  mkWt (fold_left (fun f k => snd (unset f k)) (socks r) (fs s)) (loadNext s) (ret s).
Inductive wres := WGot (r m : Z) (s : st) (rest : list answer) | WWaits (s : st) | WThrow | WUndef | WFuel.
(** linuxFdSelect.cpp:232-239 isWakeUpRequest *)
Definition isWake (s : st) (x : fdinfo) : bool := match wake s with Some (i, _) => ifd x =? i | None => false end.
(** linuxNetWaitingObj.cpp:50-66: the loop *)
Fixpoint load (fuel : nat) (polls : list answer) (s : st) : wres :=
  match fuel with
  | O => WFuel
  | S f =>
      match getNext polls s with
      | None => WUndef
      | Some Fails => WThrow
      | Some (Waits s) => WWaits s
      | Some (Got x s rest) =>
          if isWake s x then WGot 0 (imask x) s rest
          else if negb (idata x =? 0) then WGot (idata x) (imask x) (set_ s (mkI (ifd x) 0 0 None)) rest
          else load f rest s
      end
  end.
Definition fuelOf (polls : list answer) (s : st) : nat := S (length polls) * S (length (fdList s)).
Inductive answ := AGot (r m : Z) | AWaits | AThrow | AUndef | AFuel.
(** linuxNetWaitingObj.cpp:49-68 peek; the answers of poll that are left *)
Definition peekW (polls : list answer) (s : wst) : answ * wst * list answer :=
  if loadNext s then
    match load (fuelOf polls (fs s)) polls (fs s) with
    | WGot r m f rest => (AGot r m, mkWt f (loadNext s) (Some (r, m)), rest)
    | WWaits f => (AWaits, mkWt f (loadNext s) (ret s), [])
    | WThrow => (AThrow, s, polls)
    | WUndef => (AUndef, s, polls)
    | WFuel => (AFuel, s, polls)
    end
  else match ret s with Some (r, m) => (AGot r m, s, polls) | None => (AUndef, s, polls) end.
(** linuxNetWaitingObj.cpp:44-47 getNext *)
Definition nextW (polls : list answer) (s : wst) : answ * wst * list answer := peekW polls (mkWt (fs s) true (ret s)).
(** linuxNetWaitingObj.cpp:70-72, linuxFdSelect.cpp:103-105 *)
Definition hasItems (s : wst) : bool := match fdList (fs s) with [] => false | _ => true end.
(** linuxNetWaitingObj.cpp:74-76, linuxFdSelect.cpp:241-244, 286-287: sleep; [own]: its time is the first that ends; poll answers 0 when it reports nothing *)
Definition sleep (s : wst) (a : answer) (own : bool) : bool * wst :=
  match seek (fdList (fs s)) 0 (curPos (fs s)) with
  | Some i => (false, mkWt (withCur (fs s) i) (loadNext s) (ret s))
  | None =>
      let f := pollAll (fs s) a in
      (forallb (fun p => revents p =? 0) (fdList f) && own, mkWt f (loadNext s) (ret s))
  end.
(** linuxNetWaitingObj.cpp:78-80 *)
Definition wakeW (s : wst) (r : Z) : wst := mkWt (wakeUp (fs s) r) (loadNext s) (ret s).

(** programs and what happens in them, the newest first *)
Inductive wop := OAdd (r m : Z) (t : option Z) | ORem (r : Z) | ONext (polls : list answer).
Definition poll_ev (a : answer) : hev := HPoll (rep a) (now a).
Definition stepW (socks : Z -> list Z) (s : wst) (o : wop) : outcome (list hev * wst) :=
  match o with
  | OAdd r m t => Ok ([HAdd r m t], add socks s r m t)
  | ORem r => Ok ([HRem r], remove socks s r)
  | ONext polls =>
      let x := nextW polls s in
      let used := firstn (length polls - length (snd x)) polls in
      match fst (fst x) with
      | AGot r m => Ok (HGot r m :: rev (map poll_ev used), snd (fst x))
      | AWaits => Ok (HWait :: rev (map poll_ev used), snd (fst x))
      | AThrow => Throw
      | AUndef => Undef
      | AFuel => NoFuel
      end
  end.
Fixpoint runW (socks : Z -> list Z) (l : list wop) (h : list hev) (s : wst) : outcome (list hev * wst) :=
  match l with
  | [] => Ok (h, s)
  | o :: l => match stepW socks s o with Ok x => runW socks l (fst x ++ h) (snd x) | Throw => Throw | Undef => Undef | NoFuel => NoFuel end
  end.
