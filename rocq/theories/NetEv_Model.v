(** Model of LinuxNetworkEventListener, base/linux/networkEventListener.cpp, in its worker thread.

    EPollSelect is taken as it is seen here: for each socket the user data (0: NULL), the mask and the timeout it is charged
    with; a call of set stores them before it may throw (epollSelect.cpp:74-99, see EpSel_Model).  FdData objects have
    addresses 1, 2, ... that are not used again; access to a deleted object is undefined.  The queue of messages and the
    thread are not modelled. *)
From Verif Require Import Common NetEv_Spec.
Open Scope N_scope.

(** networkEventListener.h:47-54 *)
Record lst := mkL { obs : nat; ltm : option Z; msk : N }.
Record pent := mkP { pdat : nat; pmask : N; ptm : option Z }.
(** networkEventListener.h:58-62 FdData ([None]: deleted) *)
Record st := mkS { objs : list (option (list lst)); poll : nat -> pent }.
Definition init := mkS [] (fun _ => mkP 0 0 None).
Definition getObj (s : st) (p : nat) : outcome (list lst) :=
  match p with
  | O => Undef
  | S i => match nth_error (objs s) i with Some (Some l) => Ok l | _ => Undef end
  end.
Definition store (s : st) (p : nat) (o : option (list lst)) : st := mkS (upd (objs s) (p - 1) o) (poll s).
(** epollSelect.cpp:52-100 as it is seen here *)
Definition pollSet (s : st) (fd : nat) (m : N) (tm : option Z) (p : nat) (ok : bool) : outcome unit * st :=
  (if ok then Ok tt else Throw, mkS (objs s) (fun g => if Nat.eqb g fd then mkP p m tm else poll s g)).

(** mt/timeout.h:140-144 *)
Definition tmLess (a b : option Z) : bool :=
  match a, b with None, _ => false | Some _, None => true | Some a, Some b => Z.ltb a b end.
(** networkEventListener.cpp:126-133 *)
Fixpoint fold (tm : option Z) (m : N) (l : list lst) : option Z * N :=
  match l with
  | [] => (tm, m)
  | e :: r => fold (if tmLess (ltm e) tm then ltm e else tm) (N.lor m (msk e)) r
  end.
(** networkEventListener.cpp:122-141 *)
Definition updateFdData (s : st) (p fd : nat) (ok : bool) : outcome unit * st :=
  match getObj s p with
  | Ok [] =>
      let r := pollSet s fd 0 None 0 ok in
      match fst r with Ok _ => (Ok tt, store (snd r) p None) | x => (x, snd r) end
  | Ok (e :: l) => let f := fold (ltm e) (msk e) l in pollSet s fd (snd f) (fst f) p ok
  | _ => (Undef, s)
  end.
(** networkEventListener.cpp:87-92 *)
Fixpoint eraseObs (l : list lst) (o : nat) : list lst :=
  match l with [] => [] | e :: r => if Nat.eqb (obs e) o then r else e :: eraseObs r o end.
(** networkEventListener.cpp:105-115 *)
Fixpoint putObs (l : list lst) (x : lst) : list lst :=
  match l with [] => [x] | e :: r => if Nat.eqb (obs e) (obs x) then x :: r else e :: putObs r x end.
(** networkEventListener.cpp:81-120 *)
Definition doRequestWithSocket (s : st) (fd o : nat) (m : N) (tm : option Z) (ok : bool) : outcome unit * st :=
  let p := pdat (poll s fd) in
  if m =? 0 then
    match p with
    | O => (Ok tt, s)
    | _ =>
        match getObj s p with
        | Ok l => updateFdData (store s p (Some (eraseObs l o))) p fd ok
        | _ => (Undef, s)
        end
    end
  else
    match p with
    | O =>
        let p := S (length (objs s)) in
        let s := mkS (objs s ++ [Some []]) (poll s) in
        match getObj s p with
        | Ok l =>
            let r := updateFdData (store s p (Some (putObs l (mkL o tm m)))) p fd ok in
            match fst r with Ok _ => r | x => (x, store (snd r) p None) end
        | _ => (Undef, s)
        end
    | _ =>
        match getObj s p with
        | Ok l => updateFdData (store s p (Some (putObs l (mkL o tm m)))) p fd ok
        | _ => (Undef, s)
        end
    end.
(** mt/timeout.h:82-85 *)
Definition expired (now : Z) (t : option Z) : bool := match t with Some t => Z.ltb t now | None => false end.
(** networkEventListener.cpp:168-181: the calls to do, and the listeners that stay *)
Fixpoint collect (l : list lst) (flags : N) (now : Z) : list (nat * N) * list lst :=
  match l with
  | [] => ([], [])
  | e :: r =>
      let x := collect r flags now in
      if negb (N.land flags (msk e) =? 0) then ((obs e, N.land flags (msk e)) :: fst x, snd x)
      else if expired now (ltm e) then ((obs e, 0) :: fst x, snd x)
      else (fst x, e :: snd x)
  end.
(** networkEventListener.cpp:156-187: an event delivered by wait (which has cleared the charge, epollSelect.cpp:125, 149, 172); no
    call is done when setting the socket again throws *)
Definition event (s : st) (fd : nat) (flags : N) (now : Z) (ok : bool) : outcome (list (nat * N)) * st :=
  let p := pdat (poll s fd) in
  let s := mkS (objs s) (fun g => if Nat.eqb g fd then mkP p 0 (ptm (poll s fd)) else poll s g) in
  match getObj s p with
  | Ok l =>
      let c := collect l flags now in
      let r := updateFdData (store s p (Some (snd c))) p fd ok in
      match fst r with
      | Ok _ => (Ok (fst c), snd r)
      | Throw => (Throw, snd r)
      | _ => (Undef, snd r)
      end
  | _ => (Undef, s)
  end.

(** histories without failing system calls; events are delivered for charged sockets only (theorem epsel_oneshot) *)
Inductive op := OReq (fd o : nat) (m : N) (tm : option Z) | OEvent (fd : nat) (flags : N) (now : Z).
Definition step (s : st) (o : op) : outcome (list ev * st) :=
  match o with
  | OReq fd o m tm => let r := doRequestWithSocket s fd o m tm true in match fst r with Ok _ => Ok ([EReq fd o m tm], snd r) | _ => Undef end
  | OEvent fd flags now =>
      if pmask (poll s fd) =? 0 then Ok ([], s)
      else let r := event s fd flags now true in
           match fst r with Ok c => Ok (rev (map (fun x => ENote fd (fst x) (snd x)) c), snd r) | _ => Undef end
  end.
Fixpoint run (l : list op) (h : list ev) (s : st) : outcome (list ev * st) :=
  match l with
  | [] => Ok (h, s)
  | o :: r => match step s o with Ok x => run r (fst x ++ h) (snd x) | _ => Undef end
  end.
