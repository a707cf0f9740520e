(** Model of Future and Promise: /repo/src/lightspeed/base/actions/promise.tcc.

    What runs under the FastLock of the future is one step.  Calls of observers
    run outside of it; an observer may use the future again, so an unfinished
    call is kept as a job and the scheduler chooses what goes on next: a new
    call ([PDo]) or a step of an unfinished one ([PGo]).  Threads therefore do
    not appear.  Observers are numbers, results (a value or an exception) are
    elements of [A].  The deque of observers is a list here (see Deque_Model).
    Not modelled: a null exception given to reject, memory of the observers
    other than those of wait(), the destructor of the future. *)
From Verif Require Import Common.

Section Promise.
Context {A : Type}.

Inductive job :=
| JCall (o : nat)               (* resolveInternal: about to call o, promise.tcc:72 *)
| JIn (o : nat)                 (* resolveInternal: in the second half of the call *)
| JLoop                         (* resolveInternal: about to lock again, promise.tcc:68 *)
| JDirect (o : nat)             (* registerObserver: about to call o, promise.tcc:90 and 97 *)
| JIn1 (o : nat)                (* registerObserver: in the second half of the call *)
| JCancel (l : list nat) (e : A)    (* cancel: about to call the rest, promise.tcc:465-466 *)
| JInC (o : nat) (l : list nat) (e : A)
| JWait (o : nat).              (* wait: has lost the race with a resolution, promise.tcc:215 *)

Record promise := mkPr {
  pvalue : option A;            (* value or exception *)
  presolving : bool;            (* promise.h:828 *)
  pobs : list nat;              (* promise.h:825 *)
  prefs : nat;                  (* resultRefCnt *)
  jobs : list job;
  (* observations *)
  delivered : list (nat * A);   (* calls of observers, newest first *)
  registered : list nat;        (* arguments of registerObserver *)
  withdrawn : list nat;         (* registrations that unregisterObserver took out *)
  offered : list A;             (* arguments of resolve, oldest first *)
  cancels : list A;             (* arguments of cancel *)
  gone : list nat               (* observers of wait() calls that have returned *)
}.

Definition pinit : promise := mkPr None false [] 0 [] [] [] [] [] [] [].

Definition setJobs (s : promise) j := mkPr (pvalue s) (presolving s) (pobs s) (prefs s) j
  (delivered s) (registered s) (withdrawn s) (offered s) (cancels s) (gone s).
Definition setObs (s : promise) l := mkPr (pvalue s) (presolving s) l (prefs s) (jobs s)
  (delivered s) (registered s) (withdrawn s) (offered s) (cancels s) (gone s).
Definition setResolving (s : promise) b := mkPr (pvalue s) b (pobs s) (prefs s) (jobs s)
  (delivered s) (registered s) (withdrawn s) (offered s) (cancels s) (gone s).
Definition setValue (s : promise) v := mkPr v (presolving s) (pobs s) (prefs s) (jobs s)
  (delivered s) (registered s) (withdrawn s) (offered s) (cancels s) (gone s).
Definition setRefs (s : promise) n := mkPr (pvalue s) (presolving s) (pobs s) n (jobs s)
  (delivered s) (registered s) (withdrawn s) (offered s) (cancels s) (gone s).
Definition noteDelivered (s : promise) o a := mkPr (pvalue s) (presolving s) (pobs s) (prefs s) (jobs s)
  ((o, a) :: delivered s) (registered s) (withdrawn s) (offered s) (cancels s) (gone s).
Definition noteRegistered (s : promise) o := mkPr (pvalue s) (presolving s) (pobs s) (prefs s) (jobs s)
  (delivered s) (o :: registered s) (withdrawn s) (offered s) (cancels s) (gone s).
Definition noteWithdrawn (s : promise) l := mkPr (pvalue s) (presolving s) (pobs s) (prefs s) (jobs s)
  (delivered s) (registered s) (l ++ withdrawn s) (offered s) (cancels s) (gone s).
Definition noteOffered (s : promise) a := mkPr (pvalue s) (presolving s) (pobs s) (prefs s) (jobs s)
  (delivered s) (registered s) (withdrawn s) (offered s ++ [a]) (cancels s) (gone s).
Definition noteCancel (s : promise) e := mkPr (pvalue s) (presolving s) (pobs s) (prefs s) (jobs s)
  (delivered s) (registered s) (withdrawn s) (offered s) (e :: cancels s) (gone s).
Definition noteGone (s : promise) o := mkPr (pvalue s) (presolving s) (pobs s) (prefs s) (jobs s)
  (delivered s) (registered s) (withdrawn s) (offered s) (cancels s) (o :: gone s).

(** promise.tcc:22-25 *)
Definition isResolved (s : promise) : bool := match pvalue s with Some _ => true | None => false end.

(** one round of the loop of resolveInternal under the lock, promise.tcc:68-75;
    the unfinished rest is the answer *)
Definition loopRound (s : promise) : promise * list job :=
  match pobs s with
  | [] => (setResolving s false, [])
  | o :: l => (setObs s l, [JCall o])
  end.

(** promise.tcc:55-76 *)
Definition resolveInternal (s : promise) (a : A) : promise * list job :=
  let s := noteOffered s a in
  if isResolved s then (s, [])
  else loopRound (setValue (setResolving s true) (Some a)).

(** promise.tcc:80-105 *)
Definition registerObserver (s : promise) (o : nat) : promise * list job :=
  let s := noteRegistered s o in
  if negb (presolving s) && isResolved s then (s, [JDirect o])
  else (setObs s (pobs s ++ [o]), []).

(** the loop at promise.tcc:119-124 *)
Fixpoint rotateBack (i : nat) (l : list nat) : outcome (list nat) :=
  match i, l with
  | O, _ => Ok l
  | S i', x :: l' => rotateBack i' (l' ++ [x])
  | S _, [] => Undef
  end.

(** the loop at promise.tcc:114-135; [k] is [cnt - i] *)
Fixpoint unregLoop (k i cnt : nat) (l : list nat) (ifc : nat) (found : bool) : outcome (list nat * bool) :=
  match k with
  | O => Ok (l, found)
  | S k' =>
      match l with
      | [] => Undef
      | _ =>
          let x := last l 0 in
          let l' := removelast l in
          if x =? ifc then
            if i <? cnt / 2 then let! l2 := rotateBack i l' in Ok (l2, true)
            else unregLoop k' (S i) cnt l' ifc true
          else unregLoop k' (S i) cnt (x :: l') ifc found
      end
  end.

(** promise.tcc:108-137 *)
Definition unregList (l : list nat) (o : nat) : outcome (list nat * bool) :=
  unregLoop (length l) 0 (length l) l o false.

Definition unregisterObserver (s : promise) (o : nat) : outcome (promise * bool) :=
  let! (l, b) := unregList (pobs s) o in
  Ok (setObs (noteWithdrawn s (repeat o (length (pobs s) - length l))) l, b).

(** promise.tcc:452-466 *)
Definition cancel (s : promise) (e : A) : promise * list job :=
  (setObs (noteCancel s e) [], [JCancel (pobs s) e]).

Definition isGone (s : promise) (o : nat) : bool := existsb (Nat.eqb o) (gone s).

(** an observer is entered with the result [a]: for the observer of wait() this
    is promise.tcc:179 or 185 *)
Definition enter (s : promise) (o : nat) (a : A) : outcome promise :=
  if isGone s o then Undef else Ok (noteDelivered s o a).

(** the rest of the observer: for that of wait() promise.tcc:180 or 186, which
    reads its member [thread] *)
Definition leave (s : promise) (o : nat) : outcome unit :=
  if isGone s o then Undef else Ok tt.

(** a step of an unfinished call *)
Definition jobStep (s : promise) (j : job) : outcome (promise * list job) :=
  match j with
  | JCall o =>
      match pvalue s with Some a => let! s := enter s o a in Ok (s, [JIn o]) | None => Undef end
  | JIn o => let! _ := leave s o in Ok (s, [JLoop])
  | JLoop => Ok (loopRound s)
  | JDirect o =>
      match pvalue s with Some a => let! s := enter s o a in Ok (s, [JIn1 o]) | None => Undef end
  | JIn1 o => let! _ := leave s o in Ok (s, [])
  | JCancel [] e => Ok (s, [])
  | JCancel (o :: l) e => let! s := enter s o e in Ok (s, [JInC o l e])
  | JInC o l e => let! _ := leave s o in Ok (s, [JCancel l e])
  | JWait o =>
      if existsb (fun d => fst d =? o) (delivered s) then Ok (noteGone s o, []) else Ok (s, [JWait o])
  end.

Inductive pop :=
| PResolve (a : A) | PRegister (o : nat) | PUnregister (o : nat) | PCancel (e : A)
| PNewRef                      (* promise.tcc:564-567 *)
| PDropRef (e : A)             (* promise.tcc:570-575; e is the new CanceledException *)
| PWaitEnd (o : nat) (timedOut : bool).   (* promise.tcc:209-216, o was registered *)

Definition opStep (s : promise) (c : pop) : outcome (promise * list job) :=
  match c with
  | PResolve a => Ok (resolveInternal s a)
  | PRegister o => Ok (registerObserver s o)
  | PUnregister o => let! (s, _) := unregisterObserver s o in Ok (s, [])
  | PCancel e => Ok (cancel s e)
  | PNewRef => Ok (setRefs s (S (prefs s)), [])
  | PDropRef e =>
      match prefs s with
      | O => Ok (s, [])
      | S n => let s := setRefs s n in if n =? 0 then Ok (cancel s e) else Ok (s, [])
      end
  | PWaitEnd o timedOut =>
      if existsb (fun d => fst d =? o) (delivered s) || timedOut then
        let! (s, b) := unregisterObserver s o in
        if b then Ok (noteGone s o, []) else Ok (s, [JWait o])
      else Ok (s, [])
  end.

Inductive pstep := PDo (c : pop) | PGo (i : nat).

Definition pexec (s : promise) (c : pstep) : outcome promise :=
  match c with
  | PDo c => let! (s, j) := opStep s c in Ok (setJobs s (jobs s ++ j))
  | PGo i =>
      match nth_error (jobs s) i with
      | None => Ok s
      | Some j =>
          let before := firstn i (jobs s) in
          let after := skipn (S i) (jobs s) in
          let! (s, l) := jobStep s j in Ok (setJobs s (before ++ l ++ after))
      end
  end.

Fixpoint prun (sched : list pstep) (s : promise) : outcome promise :=
  match sched with
  | [] => Ok s
  | c :: l => let! s := pexec s c in prun l s
  end.

End Promise.
Arguments job : clear implicits.
Arguments promise : clear implicits.
Arguments pop : clear implicits.
Arguments pstep : clear implicits.
