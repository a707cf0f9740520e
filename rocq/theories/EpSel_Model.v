(** Model of EPollSelect, base/linux/epollSelect.cpp, base/linux/epollSelect.h, with the heap of timeouts (HeapSort,
    base/containers/sort.tcc) and the references between sockets and heap entries.

    epoll and the clock come from outside: a list of rounds, one for each pass of the loop in wait; times in microseconds.  A
    reference to a heap entry is the position of the entry; the memory of the heap is assumed not to move while an old
    reference is kept.  Interrupted waits (137-139 with EINTR) are rounds with the reply [RIntr].  Errors of epoll_wait and of
    read are not modelled. *)
From Verif Require Import Common EpSel_Spec.
Open Scope Z_scope.

(** epollSelect.h:87-95; [tref] epollSelect.h:91 tmRef *)
Record info := mkI { tmo : option Z; wfor : Z; udata : Z; tref : option nat }.
Definition inone := mkI None 0 0 None.
(** epollSelect.h:115-117: socketMap, timeoutMap (the owner of each entry; heapSize is its length) *)
Record st := mkS { socks : list info; heap : list nat }.
Definition init := mkS [] [].
Definition sock (s : st) (fd : nat) : info := nth fd (socks s) inone.
Definition withSock (s : st) (fd : nat) (i : info) : st := mkS (upd (socks s) fd i) (heap s).
Definition setRef (s : st) (fd : nat) (r : option nat) : st :=
  let i := sock s fd in withSock s fd (mkI (tmo i) (wfor i) (udata i) r).

(** epollSelect.cpp:184-186 with mt/timeout.h:140-144 *)
Definition later (s : st) (a b : nat) : bool :=
  match tmo (sock s a), tmo (sock s b) with
  | Some x, Some y => y <? x
  | None, Some _ => true
  | _, None => false
  end.
(** std::swap of two entries: each assignment sets the reference of the owner, epollSelect.cpp:223-231 *)
Definition swapE (s : st) (i j : nat) : st :=
  let a := nth i (heap s) O in
  let b := nth j (heap s) O in
  setRef (setRef (mkS (socks s) (upd (upd (heap s) i b) j a)) b (Some i)) a (Some j).
(** sort.tcc:36-52 push, of the last entry *)
Fixpoint siftUp (fuel : nat) (s : st) (child : nat) : st :=
  match fuel with
  | O => s
  | S f =>
      if Nat.eqb child 0 then s
      else let parent := ((child - 1) / 2)%nat in
           if later s (nth parent (heap s) O) (nth child (heap s) O) then siftUp f (swapE s parent child) parent else s
  end.
(** sort.tcc:89-103 shiftDown; [n] is heapSize *)
Fixpoint siftDown (fuel : nat) (s : st) (n root : nat) : st :=
  match fuel with
  | O => s
  | S f =>
      let child := (root * 2 + 1)%nat in
      if Nat.ltb child n then
        let child := if Nat.ltb (child + 1) n && later s (nth child (heap s) O) (nth (child + 1) (heap s) O) then (child + 1)%nat else child in
        if later s (nth root (heap s) O) (nth child (heap s) O) then siftDown f (swapE s root child) n child else s
      else s
  end.
(** sort.tcc:69-80 pop(at): the entry goes behind the heap; the order is restored from the top only *)
Definition popAt (s : st) (at_ : nat) : st :=
  if Nat.ltb at_ (length (heap s)) then
    let n := (length (heap s) - 1)%nat in
    if Nat.ltb at_ n then siftDown n (swapE s at_ n) n 0 else s
  else s.
(** epollSelect.cpp:208-216 *)
Definition removeOldTm (s : st) (fd : nat) : st :=
  match tref (sock s fd) with
  | Some pos =>
      let s := setRef s fd None in
      if Nat.leb (length (heap s)) pos then s
      else let s := popAt s pos in mkS (socks s) (firstn (length (heap s) - 1) (heap s))
  | None => s
  end.
(** epollSelect.cpp:188-196 *)
Definition addNewTm (s : st) (fd : nat) : st :=
  match tmo (sock s fd) with
  | None => setRef s fd None
  | Some _ =>
      let n := length (heap s) in
      siftUp n (setRef (mkS (socks s) (heap s ++ [fd])) fd (Some n)) n
  end.
(** epollSelect.cpp:52-100 set; [kok]: epoll_ctl succeeds; a socket with a number that is too high is refused *)
Definition set_ (s : st) (fd : nat) (waitFor : Z) (tm : option Z) (data : Z) (kok : bool) : outcome unit * st :=
  let len := Z.of_nat (length (socks s)) in
  if (1024 <? Z.of_nat fd) && (len * 4 <? Z.of_nat fd) then (Throw, s)
  else
    let s := if Nat.leb (length (socks s)) fd then mkS (socks s ++ repeat inone (fd + 1 - length (socks s))) (heap s) else s in
    let s := removeOldTm s fd in
    let s := withSock s fd (mkI tm waitFor data (tref (sock s fd))) in
    let s := addNewTm s fd in
    (if kok then Ok tt else Throw, s).
(** epollSelect.cpp:198-200 *)
Definition unset (s : st) (fd : nat) (kok : bool) : outcome unit * st := set_ s fd 0 None 0 kok.
(** epollSelect.cpp:202-206 *)
Definition getUserData (s : st) (fd : nat) : Z := udata (sock s fd).

(** mt/timeout.h:82-85 *)
Definition expired (now : Z) (t : option Z) : bool := match t with Some t => t <? now | None => false end.
Definition withWait (s : st) (fd : nat) (w : Z) : st := let i := sock s fd in withSock s fd (mkI (tmo i) w (udata i) (tref i)).
(** epollSelect.cpp:118-130: timeouts that have expired; [n]: more passes than entries *)
Fixpoint expire (n : nat) (s : st) (now : Z) : option (nat * Z) * st :=
  match n with
  | O => (None, s)
  | S n =>
      match heap s with
      | [] => (None, s)
      | f :: _ =>
          if expired now (tmo (sock s f)) then
            let s := removeOldTm s f in
            if negb (wfor (sock s f) =? 0) then (Some (f, udata (sock s f)), withWait s f 0)
            else expire n s now
          else (None, s)
      end
  end.
(** netio_ifc.h: input 1, output 2, exception 4; EPOLLIN 1, EPOLLPRI 2, EPOLLOUT 4, EPOLLERR 8; epollSelect.cpp:168-170 *)
Definition bit (m k : Z) : bool := negb (Z.land m k =? 0).
Definition flagsOf (e : Z) : Z := Z.lor (if bit e 1 then 1 else 0) (Z.lor (if bit e 4 then 2 else 0) (if bit e 10 then 4 else 0)).
Inductive reply := RNone (endtime : Z) | REvent (fd : nat) (events : Z) | RWake | RIntr.
Inductive wres := WTimeout | WEvent (fd : nat) (flags data : Z) | WWake | WBlocks.
(** epollSelect.cpp:111-181 wait; WBlocks: the next call of epoll_wait waits *)
Fixpoint wait (rounds : list (Z * reply)) (s : st) (tm : option Z) : outcome wres * st :=
  match rounds with
  | [] => (Ok WBlocks, s)
  | (now, r) :: rest =>
      let x := expire (S (length (heap s))) s now in
      match fst x with
      | Some (fd, d) => (Ok (WEvent fd 0 d), snd x)
      | None =>
          let s := snd x in
          match r with
          | RIntr => wait rest s tm
          | RWake => (Ok WWake, s)
          | RNone endtime =>
              if expired endtime tm then (Ok WTimeout, s)
              else match heap s with
                   | [] => (Undef, s)
                   | f :: _ =>
                       let s := removeOldTm s f in
                       (Ok (WEvent f 0 (udata (sock s f))), withWait s f 0)
                   end
          | REvent fd e =>
              if Nat.ltb fd (length (socks s)) then
                let s := removeOldTm s fd in
                if negb (wfor (sock s fd) =? 0) then (Ok (WEvent fd (flagsOf e) (udata (sock s fd))), withWait s fd 0)
                else wait rest s tm
              else (Undef, s)
          end
      end
  end.
(** epollSelect.cpp:233-244 cancelAllVt: the calls of the callback, and the state *)
Fixpoint cancelFrom (l : list info) (i : nat) : list (nat * Z) * list info :=
  match l with
  | [] => ([], [])
  | x :: r =>
      let y := cancelFrom r (S i) in
      if negb (wfor x =? 0) then ((i, udata x) :: fst y, mkI (tmo x) 0 (udata x) None :: snd y)
      else (fst y, x :: snd y)
  end.
Definition cancelAll (s : st) : list (nat * Z) * st := let c := cancelFrom (socks s) 0 in (fst c, mkS (snd c) []).

(** histories.  Sockets are charged with a mask that is not empty, and epoll_ctl succeeds *)
Inductive op := OSet (fd : nat) (m : Z) (tm : option Z) (d : Z) | OUnset (fd : nat) | OWait (tm : option Z) (rounds : list (Z * reply)) | OCancel.
Definition step (s : st) (o : op) : list ev * st :=
  match o with
  | OSet fd m tm d => let r := set_ s fd m tm d true in (match fst r with Ok _ => [ESet fd d tm] | _ => [] end, snd r)
  | OUnset fd => let r := unset s fd true in (match fst r with Ok _ => [EUnset fd] | _ => [] end, snd r)
  | OWait tm rounds => let r := wait rounds s tm in (match fst r with Ok (WEvent fd fl d) => [EDeliver fd d fl] | _ => [] end, snd r)
  | OCancel => ([ECancel], snd (cancelAll s))
  end.
(** the events, newest first *)
Fixpoint run (l : list op) (h : list ev) (s : st) : list ev * st :=
  match l with
  | [] => (h, s)
  | o :: r => let x := step s o in run r (fst x ++ h) (snd x)
  end.
