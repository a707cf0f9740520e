(** Model of LinuxFdSelect, base/linux/linuxFdSelect.cpp, base/linux/linuxFdSelect.h: a set of descriptors that are watched by poll().

    The state of the object, one operation at a time.  poll() and the clock come from outside: a list of answers, one for each
    call (linuxFdSelect.cpp:269-286); when there is no answer left, the call waits.  An interrupted poll is called again
    (271-273) and is not modelled.  Element access is not checked (containers/flatArray.h:81, 129), so an index behind the end
    is undefined.  *)
From Verif Require Import Common FdSelect_Spec.
Open Scope Z_scope.

Definition naturalNull : Z := 2 ^ 64 - 1.
(** poll.h: POLLIN 1, POLLPRI 2, POLLOUT 4, POLLERR 8, POLLHUP 16, POLLNVAL 32; netio_ifc.h:279-285: input 1, output 2, exception 4 *)
Definition bit (m k : Z) : bool := negb (Z.land m k =? 0).
Definition orif (b : bool) (k m : Z) : Z := if b then Z.lor m k else m.
(** linuxFdSelect.cpp:22-28 *)
Definition waitMaskToEvents (m : Z) : Z := orif (bit m 4) 2 (orif (bit m 2) 4 (orif (bit m 1) 1 0)).
(** linuxFdSelect.cpp:30-38 *)
Definition eventsToWaitMask (e : Z) : Z :=
  orif (bit e 32) 7 (orif (bit e 16) 1 (orif (bit e 2) 4 (orif (bit e 4) 2 (orif (bit e 1) 1 0)))).

Record pfd := mkP { pf : Z; events : Z; revents : Z }.
(** linuxFdSelect.h:174-177 FdExtra: data, timeout (None: infinite) *)
Record extra := mkX { xdata : Z; xtm : option Z }.
Record fdinfo := mkI { ifd : Z; imask : Z; idata : Z; itm : option Z }.
(** linuxFdSelect.h:179-190; [wake]: the wake-up pipe cancelIn, cancelOut; [closed]: the descriptors that were closed *)
Record st := mkS { fdList : list pfd; fdExtra : list extra; fdIndex : list (Z * nat); curPos : Z;
                   wake : option (Z * Z); pending : Z; reason : Z; closed : list Z }.
(** linuxFdSelect.cpp:57-58 *)
Definition init : st := mkS [] [] [] naturalNull None (-1) 0 [].
Definition withL s l := mkS l (fdExtra s) (fdIndex s) (curPos s) (wake s) (pending s) (reason s) (closed s).
Definition withCur s c := mkS (fdList s) (fdExtra s) (fdIndex s) c (wake s) (pending s) (reason s) (closed s).
Definition withT s l x i := mkS l x i (curPos s) (wake s) (pending s) (reason s) (closed s).

(** Map<int, natural> *)
Fixpoint find (m : list (Z * nat)) (fd : Z) : option nat := match m with [] => None | (k, v) :: r => if k =? fd then Some v else find r fd end.
Definition erase (m : list (Z * nat)) (fd : Z) : list (Z * nat) := filter (fun p => negb (fst p =? fd)) m.

(** linuxFdSelect.cpp:79-101 set *)
Definition set_ (s : st) (i : fdinfo) : st :=
  match find (fdIndex s) (ifd i) with
  | None =>
      let newPos := length (fdList s) in
      withT s (fdList s ++ [mkP (ifd i) (waitMaskToEvents (imask i)) 0]) (fdExtra s ++ [mkX (idata i) (itm i)]) ((ifd i, newPos) :: fdIndex s)
  | Some pos =>
      withT s (upd (fdList s) pos (mkP (ifd i) (waitMaskToEvents (imask i)) 0)) (upd (fdExtra s) pos (mkX (idata i) (itm i))) (fdIndex s)
  end.
Definition pnone := mkP 0 0 0.
Definition xnone := mkX 0 None.
(** linuxFdSelect.cpp:148-162 removeFd *)
Definition removeFd (s : st) (pos : nat) : st :=
  let idx := erase (fdIndex s) (pf (nth pos (fdList s) pnone)) in
  let lastPos := (length (fdList s) - 1)%nat in
  let s1 :=
    if Nat.eqb pos lastPos then withT s (firstn lastPos (fdList s)) (firstn lastPos (fdExtra s)) idx
    else
      let l := upd (fdList s) pos (nth lastPos (fdList s) pnone) in
      let x := upd (fdExtra s) pos (nth lastPos (fdExtra s) xnone) in
      let idx := map (fun p => if fst p =? pf (nth pos l pnone) then (fst p, pos) else p) idx in
      withT s (firstn lastPos l) (firstn lastPos x) idx in
  if Z.of_nat pos <? curPos s1 then withCur s1 (Z.of_nat pos) else s1.
(** linuxFdSelect.cpp:68-77 unset: the data, or nothing *)
Definition unset (s : st) (fd : Z) : option Z * st :=
  match find (fdIndex s) fd with
  | Some pos => (Some (xdata (nth pos (fdExtra s) xnone)), removeFd s pos)
  | None => (None, s)
  end.
(** linuxFdSelect.cpp:178-197 isSet, getData *)
Definition getData (s : st) (fd : Z) : option Z :=
  match find (fdIndex s) fd with Some pos => Some (xdata (nth pos (fdExtra s) xnone)) | None => None end.
(** linuxFdSelect.cpp:141-146 *)
Definition dropAll (s : st) : st := withL (withCur s 0) (map (fun p => mkP (pf p) 0 (revents p)) (fdList s)).
(** linuxFdSelect.cpp:269-284: one call of poll: what it reports for each descriptor, and the time after it *)
Record answer := mkA { rep : Z -> Z; now : Z }.
Definition expired (now : Z) (t : option Z) : bool := match t with Some t => t <? now | None => false end.
Definition pollAll (s : st) (a : answer) : st :=
  let upd1 (px : pfd * extra) :=
    let '(p, x) := px in
    let r := rep a (pf p) in
    mkP (pf p) (if expired (now a) (xtm x) || bit r 8 then 0 else events p) r in
  withL (withCur s 0) (map upd1 (combine (fdList s) (fdExtra s))).
(** linuxFdSelect.cpp:164-176 findSignaled *)
Definition signaled (p : pfd) : bool := negb (revents p =? 0) || (events p =? 0).
Fixpoint seek (l : list pfd) (i cur : Z) : option Z :=
  match l with
  | [] => None
  | p :: r => if (cur <=? i) && signaled p then Some i else seek r (i + 1) cur
  end.
Inductive res (A : Type) := Got (x : A) (s : st) (rest : list answer) | Waits (s : st) | Fails.
Arguments Got {A}. Arguments Waits {A}. Arguments Fails {A}.
Fixpoint findSignaled (polls : list answer) (s : st) : res Z :=
  if Nat.eqb (length (fdList s)) 0 then Fails
  else match seek (fdList s) 0 (curPos s) with
       | Some i => Got i (withCur s i) polls
       | None =>
           let s := withCur s (Z.max (curPos s) (Z.of_nat (length (fdList s)))) in
           match polls with
           | [] => Waits s
           | a :: r => findSignaled r (pollAll s a)
           end
       end.
(** linuxFdSelect.cpp:121-139 peek: the wake-up request comes first; nothing registered: an exception *)
Definition peek (polls : list answer) (s : st) : res fdinfo :=
  if negb (pending s =? -1) then Got (mkI (match wake s with Some (i, _) => i | None => -1 end) 1 0 (Some 0)) s polls
  else match findSignaled polls s with
       | Got i s r =>
           let p := nth (Z.to_nat i) (fdList s) pnone in
           let x := nth (Z.to_nat i) (fdExtra s) xnone in
           Got (mkI (pf p) (eventsToWaitMask (revents p)) (xdata x) (xtm x)) s r
       | Waits s => Waits s
       | Fails => Fails
       end.
(** linuxFdSelect.cpp:107-119 getNext; the outer option: None is undefined behaviour *)
Definition getNext (polls : list answer) (s : st) : option (res fdinfo) :=
  match peek polls s with
  | Got x s r =>
      if curPos s <? Z.of_nat (length (fdList s)) then
        let p := nth (Z.to_nat (curPos s)) (fdList s) pnone in
        let s := withCur (withL s (upd (fdList s) (Z.to_nat (curPos s)) (mkP (pf p) (events p) 0))) (curPos s + 1) in
        let s := if match wake s with Some (i, _) => (ifd x =? i) && negb (imask x =? 0) | None => false end
                 then mkS (fdList s) (fdExtra s) (fdIndex s) (curPos s) (wake s) (-1) (reason s) (closed s) else s in
        Some (Got x s r)
      else None
  | Waits s => Some (Waits s)
  | Fails => Some Fails
  end.
(** linuxFdSelect.cpp:202-221 enableWakeUp; [i], [o]: the descriptors of the new pipe *)
Definition enableWakeUp (s : st) (enable : bool) (i o : Z) : st :=
  if enable then
    let s := match wake s with
             | None => mkS (fdList s) (fdExtra s) (fdIndex s) (curPos s) (Some (i, o)) (-1) (reason s) (closed s)
             | Some _ => s
             end in
    set_ s (mkI (match wake s with Some (i, _) => i | None => -1 end) 1 0 None)
  else match wake s with
       | Some (i, o) =>
           let s := snd (unset s i) in
           mkS (fdList s) (fdExtra s) (fdIndex s) (curPos s) (wake s) (pending s) (reason s) (i :: o :: closed s)
       | None => s
       end.
(** linuxFdSelect.cpp:60-62 *)
Definition destroy (s : st) : st := enableWakeUp s false 0 0.
(** linuxFdSelect.cpp:223-230 wakeUp: the pipe is not modelled, only the counter and the reason; used after enableWakeUp *)
Definition wakeUp (s : st) (r : Z) : st := mkS (fdList s) (fdExtra s) (fdIndex s) (curPos s) (wake s) (pending s + 1) r (closed s).

(** linuxFdSelect.cpp:246-268: the time that is given to poll, and whether the end of this time is the end of the call;
    [rems]: the times that are left for each descriptor, in milliseconds (None: infinite); the conversion to int keeps 32 bits *)
Definition toInt (v : Z) : Z := let m := v mod 2 ^ 32 in if m <? 2 ^ 31 then m else m - 2 ^ 32.
Definition pollTime (rems : list (option Z)) (tm : option Z) : Z * bool :=
  let minTm := fold_left (fun m r => match r with Some c => if c <? m then c else m | None => m end) rems naturalNull in
  let '(minTm, ret) := match tm with Some q => if q <? minTm then (q, true) else (minTm, false) | None => (minTm, false) end in
  (if minTm =? naturalNull then -1 else toInt minTm, ret).

(** a history of operations; [None]: undefined *)
Inductive op := OSet (i : fdinfo) | OUnset (fd : Z) | ODrop | OPoll (a : answer) | ONext (polls : list answer).
Definition step (s : st) (o : op) : option st :=
  match o with
  | OSet i => Some (set_ s i)
  | OUnset fd => Some (snd (unset s fd))
  | ODrop => Some (dropAll s)
  | OPoll a => Some (pollAll s a)
  | ONext polls => match getNext polls s with Some (Got _ s _) => Some s | Some (Waits s) => Some s | Some Fails => Some s | None => None end
  end.
Fixpoint run (l : list op) (s : st) : option st :=
  match l with [] => Some s | o :: r => match step s o with Some s => run r s | None => None end end.
