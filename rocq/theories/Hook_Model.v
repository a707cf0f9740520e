(** Model of thread hooks: /repo/src/lightspeed/mt/threadHook.cpp, and of the order of
    the calls in a new thread: mt/linux/thread.cpp:206-247.  The lock
    (MicroLock, see MicroLock_Model) makes each call atomic. *)
From Verif Require Import Common Hook_Spec.

(** threadHook.h:104-105 *)
Record hook := mkHook { installed : bool; next : option nat }.
(** the objects by address, None where there is no object; threadHook.cpp:15 *)
Record st := mkSt { mem : nat -> option hook; chain : option nat }.
Definition init : st := mkSt (fun _ => None) None.

Definition set (s : st) (h : nat) (x : option hook) : st :=
  mkSt (fun a => if a =? h then x else mem s a) (chain s).
Definition setChain (s : st) (c : option nat) : st := mkSt (mem s) c.
Definition oeqb (a b : option nat) : bool :=
  match a, b with Some x, Some y => x =? y | None, None => true | _, _ => false end.

(** threadHook.cpp:18-19 *)
Definition new (h : nat) (s : st) : outcome st := Ok (set s h (Some (mkHook false None))).

(** threadHook.cpp:25-32 *)
Definition install (h : nat) (s : st) : outcome st :=
  match mem s h with
  | None => Undef
  | Some x => if installed x then Ok s
              else Ok (setChain (set s h (Some (mkHook true (chain s)))) (Some h))
  end.

(** threadHook.cpp:42-45: the hook whose next is [h], or the last one *)
Fixpoint before (f p h : nat) (s : st) : outcome nat :=
  match f with
  | O => NoFuel
  | S f' =>
      match mem s p with
      | None => Undef
      | Some x => match next x with
                  | None => Ok p
                  | Some n => if n =? h then Ok p else before f' n h s
                  end
      end
  end.

(** threadHook.cpp:34-51 *)
Definition uninstall (f h : nat) (s : st) : outcome st :=
  match mem s h with
  | None => Undef
  | Some x =>
      if negb (installed x) then Ok s
      else match chain s with
      | None => Ok s
      | Some c =>
          if c =? h then Ok (set (setChain s (next x)) h (Some (mkHook false None)))
          else
            let! p := before f c h s in
            match mem s p with
            | None => Undef
            | Some y => Ok (set (set s p (Some (mkHook (installed y) (next x)))) h (Some (mkHook false None)))
            end
      end
  end.

(** threadHook.cpp:105-107 *)
Definition destroy (f h : nat) (s : st) : outcome st :=
  match mem s h with
  | None => Undef
  | Some x => let! s := (if installed x then uninstall f h s else Ok s) in Ok (set s h None)
  end.

(** [f] bounds the walk along the chain *)
Fixpoint run (f : nat) (l : list op) (s : st) : outcome st :=
  match l with
  | [] => Ok s
  | o :: l' =>
      let! s := match o with
                | New h => new h s
                | Install h => install h s
                | Uninstall h => uninstall f h s
                | Delete h => destroy f h s
                end in run f l' s
  end.

Section Calls.
(** the handlers that throw *)
Variable throws : nat -> bool.

(** threadHook.cpp:54-65: the calls, and whether it throws *)
Fixpoint callInit (f : nat) (from : option nat) (s : st) : outcome (list event * bool) :=
  match f with
  | O => NoFuel
  | S f' =>
      match from with
      | None => Ok ([], false)
      | Some h =>
          match mem s h with
          | None => Undef
          | Some x =>
              let! r := callInit f' (next x) s in
              if snd r then Ok (fst r ++ [EExc h], true)
              else Ok (fst r ++ [EInit h], throws h)
          end
      end
  end.
(** threadHook.cpp:67-72 *)
Definition onInit (f : nat) (s : st) : outcome (list event * bool) := callInit f (chain s) s.

(** threadHook.cpp:85-88, 98-101 *)
Fixpoint callExc (f : nat) (pos : option nat) (s : st) : outcome (list event) :=
  match f with
  | O => NoFuel
  | S f' =>
      match pos with
      | None => Ok []
      | Some h => match mem s h with
                  | None => Undef
                  | Some x => let! r := callExc f' (next x) s in Ok (EExc h :: r)
                  end
      end
  end.
(** threadHook.cpp:94-103 *)
Definition onExc (f : nat) (s : st) : outcome (list event) := callExc f (chain s) s.

(** threadHook.cpp:77-90 *)
Fixpoint callExit (f : nat) (pos : option nat) (s : st) : outcome (list event * bool) :=
  match f with
  | O => NoFuel
  | S f' =>
      match pos with
      | None => Ok ([], false)
      | Some h =>
          match mem s h with
          | None => Undef
          | Some x =>
              if throws h then let! r := callExc f' (next x) s in Ok (EExit h :: r, true)
              else let! r := callExit f' (next x) s in Ok (EExit h :: fst r, snd r)
          end
      end
  end.
(** threadHook.cpp:74-92 *)
Definition onExit (f : nat) (s : st) : outcome (list event * bool) := callExit f (chain s) s.

(** linux/thread.cpp:210-243: the calls a new thread makes; [fnThrows] tells whether its
    function throws; the second part tells whether the thread that called
    Thread::start is woken up (215), it waits without a time limit (368) *)
Definition bootstrap (f : nat) (fnThrows : bool) (s : st) : outcome (list event * bool) :=
  let! i := onInit f s in
  if snd i then Ok (fst i, false)
  else if fnThrows then let! x := onExc f s in Ok (fst i ++ EFn :: x, true)
  else let! x := onExit f s in Ok (fst i ++ EFn :: fst x, true).
End Calls.
