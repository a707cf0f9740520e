(** Model of the lock-free list SList: /repo/src/lightspeed/mt/slist.h.

    Any number of threads and lists; one step is one access to a shared
    variable, the memory is sequentially consistent.  A schedule is a list of
    pairs: the thread that moves and what its program calls when it is free to
    choose.  Items are never freed, so reading the link of an item taken by
    somebody else meanwhile (slist.h:75) is possible.

    empty() (slist.h:93-95) does not compile and is not modelled. *)
From Verif Require Import Common SList_Spec.

Section Model.
  (** the alignment, slist.h:28 *)
  Variable align : nat.

  (** the word _top, slist.h:188: an address and the cookie in its unused bits, slist.h:191-199 *)
  Notation word := (option nat * nat)%type.
  Definition oeqb (a b : option nat) : bool :=
    match a, b with Some x, Some y => x =? y | None, None => true | _, _ => false end.
  Definition weqb (v w : word) : bool := oeqb (fst v) (fst w) && (snd v =? snd w).

  (** where a thread stands in the functions of slist.h:48-81, 153-162; [k]: how many items were taken from the list when the top was read (log) *)
  Inductive pc :=
  | Idle
  | PushRead (l i : nat)                         (* line 50 *)
  | PushNext (l i : nat) (c : word)              (* lines 52-54 *)
  | PushCas (l i : nat) (c : word)               (* lines 55-57 *)
  | PopRead (l : nat)                            (* line 70 *)
  | PopNext (l : nat) (c : word) (k : nat)       (* line 75 *)
  | PopCas (l : nat) (c : word) (n : option nat) (k : nat)  (* lines 76-79 *)
  | SwapX (l src : nat) (w : word)               (* lines 154, 161: the exchange *)
  | SwapW (l : nat) (w : word).                  (* lines 154, 161: the assignment *)

  (** what the program of an idle thread calls *)
  Inductive cmd :=
  | CPush (l i : nat) | CPop (l : nat)
  | CSwap (l src : nat)                        (* take and swap of l with the argument src *)
  | CSwapIf (l src : nat) (cond : option nat). (* swapWhenTopIs, slist.h:174-179 *)

  Record state := mkState {
    tops : nat -> word;
    nxt : nat -> option nat;                  (* the field next of an item *)
    outside : nat -> bool;                    (* the item is in no list and free to be put into one *)
    pcs : nat -> pc;
    log : list event
  }.

  (** slist.h:36 *)
  Definition init : state := mkState (fun _ => (None, 0)) (fun _ => None) (fun _ => true) (fun _ => Idle) [].

  Definition setPc (s : state) (t : nat) (p : pc) : state :=
    mkState (tops s) (nxt s) (outside s) (fun u => if u =? t then p else pcs s u) (log s).
  Definition setTop (s : state) (l : nat) (w : word) : state :=
    mkState (fun k => if k =? l then w else tops s k) (nxt s) (outside s) (pcs s) (log s).
  Definition setNxt (s : state) (i : nat) (n : option nat) : state :=
    mkState (tops s) (fun j => if j =? i then n else nxt s j) (outside s) (pcs s) (log s).
  Definition setOut (s : state) (i : nat) (b : bool) : state :=
    mkState (tops s) (nxt s) (fun j => if j =? i then b else outside s j) (pcs s) (log s).
  Definition logEv (s : state) (e : event) : state :=
    mkState (tops s) (nxt s) (outside s) (pcs s) (log s ++ [e]).

  (** slist.h:72-74, no access to a shared variable, with the value of the top just read *)
  Definition popGot (t l : nat) (s : state) : state :=
    match fst (tops s l) with
    | None => setPc (logEv s (ENone l)) t Idle
    | Some _ => setPc s t (PopNext l (tops s l) (taken l (log s)))
    end.

  (** one step of thread [t] in slist.h:48-81, 153-179; None when it cannot move.  The program puts into a list only items
      that are in none (slist.h:41, 102).  swapWhenTopIs is one step: nobody else uses the lists. *)
  Definition move (t : nat) (c : cmd) (s : state) : option state :=
    match pcs s t with
    | Idle =>
        match c with
        | CPush l i => if outside s i then Some (setPc (setOut s i false) t (PushRead l i)) else None
        | CPop l => Some (setPc s t (PopRead l))
        | CSwap l src => Some (setPc s t (SwapX l src (tops s l)))
        | CSwapIf l src cond =>
            let x := (cond, snd (tops s l)) in
            let q := tops s l in
            Some (setTop (if weqb q x then setTop s l (tops s src) else s) src q)
        end
    | PushRead l i => Some (setPc s t (PushNext l i (tops s l)))
    | PushNext l i c => Some (setPc (setNxt s i (fst c)) t (PushCas l i c))
    | PushCas l i c =>
        if weqb (tops s l) c then
          Some (setPc (logEv (setTop s l (Some i, snd c)) (EPush l i)) t Idle)
        else Some (setPc s t (PushNext l i (tops s l)))
    | PopRead l => Some (popGot t l s)
    | PopNext l c k =>
        match fst c with
        | None => None
        | Some p => Some (setPc s t (PopCas l c (nxt s p) k))
        end
    | PopCas l c n k =>
        if weqb (tops s l) c then
          match fst c with
          | Some p => Some (setPc (setOut (logEv (setTop s l (n, (snd c + 1) mod align)) (EPop l p)) p true) t Idle)
          | None => None
          end
        else Some (popGot t l s)
    | SwapX l src w => Some (setPc (setTop s src w) t (SwapW l (tops s src)))
    | SwapW l w => Some (setPc (setTop s l w) t Idle)
    end.

  Fixpoint run (sched : list (nat * cmd)) (s : state) : state :=
    match sched with
    | [] => s
    | (t, c) :: r => run r (match move t c s with Some s' => s' | None => s end)
    end.
End Model.
