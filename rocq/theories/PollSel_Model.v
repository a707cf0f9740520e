(** Model of PollSelect, base/linux/pollSelect.cpp: the pool given to poll(2) and the places of sockets in it.  Timeouts are the
    same code as in EPollSelect (EpSel_Model); here a timeout is an input. *)
From Verif Require Import Common PollSel_Spec.
Open Scope N_scope.

(** one entry of curpool; pollSelect.h:79-84 *)
Record pent := mkE { efd : nat; eev : N }.
(** pollSelect.h:88-97 FdInfo without the timeout; [ppos]: poolpos, [None] for naturalNull *)
Record info := mkI { wfor : N; udata : Z; ppos : option nat }.
Record st := mkS { sock : nat -> info; pool : list pent }.
(** pollSelect.cpp:25-42; [w] is the descriptor of the pipe; POLL_IN is 1 *)
Definition init (w : nat) := mkS (fun _ => mkI 0 0 None) [mkE w 1].
Definition withSock (s : st) (fd : nat) (i : info) : st := mkS (fun g => if Nat.eqb g fd then i else sock s g) (pool s).
Definition setPos (s : st) (fd : nat) (p : option nat) : st := withSock s fd (mkI (wfor (sock s fd)) (udata (sock s fd)) p).
(** pollSelect.cpp:111-120 *)
Definition removeFromPool (s : st) (p : option nat) : st :=
  match p with
  | None => s
  | Some i =>
      let s := setPos s (efd (nth i (pool s) (mkE 0 0))) None in
      let n := (length (pool s) - 1)%nat in
      let s := if Nat.eqb n i then s
               else let t := nth n (pool s) (mkE 0 0) in setPos (mkS (sock s) (upd (pool s) i t)) (efd t) (Some i) in
      mkS (sock s) (firstn n (pool s))
  end.
(** the constants POLL_IN 1, POLL_OUT 2, POLL_ERR 4, POLL_PRI 5 are codes of the signal SIGPOLL (signal.h), not events of
    poll(2); pollSelect.cpp:86-88 *)
Definition evOf (m : N) : N :=
  N.lor (if N.testbit m 0 then 1 else 0) (N.lor (if N.testbit m 1 then 2 else 0) (if N.testbit m 2 then 5 else 0)).
(** pollSelect.cpp:70-98 *)
Definition set_ (s : st) (fd : nat) (m : N) (d : Z) : st :=
  let s := withSock s fd (mkI m d (ppos (sock s fd))) in
  if m =? 0 then removeFromPool s (ppos (sock s fd))
  else
    let e := mkE fd (evOf m) in
    match ppos (sock s fd) with
    | None => let s := setPos s fd (Some (length (pool s))) in mkS (sock s) (pool s ++ [e])
    | Some i => mkS (sock s) (upd (pool s) i e)
    end.
Definition clearWait (s : st) (fd : nat) : st := withSock s fd (mkI 0 (udata (sock s fd)) (ppos (sock s fd))).
(** pollSelect.cpp:132-139, 155-162: the timeout of a socket *)
Definition timeout (s : st) (fd : nat) : option (nat * Z) * st :=
  if wfor (sock s fd) =? 0 then (None, s)
  else let s := clearWait s fd in (Some (fd, udata (sock s fd)), removeFromPool s (ppos (sock s fd))).
(** pollSelect.cpp:180-191: poll reports entry [i] of the pool, which is not the pipe *)
Definition report (s : st) (i : nat) : option (nat * Z) * st :=
  let fd := efd (nth i (pool s) (mkE 0 0)) in
  let s := removeFromPool s (Some i) in
  if wfor (sock s fd) =? 0 then (None, s) else (Some (fd, udata (sock s fd)), clearWait s fd).
(** pollSelect.cpp:258-268; the pool is left *)
Definition cancelAll (s : st) : st := mkS (fun g => mkI 0 (udata (sock s g)) (ppos (sock s g))) (pool s).

Inductive op := OSet (fd : nat) (m : N) (d : Z) | OTimeout (fd : nat) | OReport (i : nat) | OCancel.
Definition step (s : st) (o : op) : list ev * st :=
  match o with
  | OSet fd m d => ([ESet fd m d], set_ s fd m d)
  | OTimeout fd => let r := timeout s fd in (match fst r with Some (f, d) => [EDeliver f d] | None => [] end, snd r)
  | OReport i =>
      if Nat.eqb i 0 || Nat.leb (length (pool s)) i then ([], s)
      else let r := report s i in (match fst r with Some (f, d) => [EDeliver f d] | None => [] end, snd r)
  | OCancel => ([ECancel], cancelAll s)
  end.
Fixpoint run (l : list op) (h : list ev) (s : st) : list ev * st :=
  match l with [] => (h, s) | o :: r => let x := step s o in run r (fst x ++ h) (snd x) end.
