(** Model of the message queue by its pointers, one call after another: base/actions/msgQueue.cpp.
    It shows what happens when a message is posted while it waits in the queue, which
    MsgQueue_Model.v excludes.  Messages are numbers; reading or writing a destroyed message is
    undefined. *)
From Verif Require Import Common.

(** msgQueue.h:148 (next), 448-468.  [dead] are the messages destroyed by done(). *)
Record ptrs := mkP { nxt : nat -> option nat; newM : option nat; curQ : option nat; dead : list nat }.
Definition start : ptrs := mkP (fun _ => None) None None [].

Definition isdead (s : ptrs) (m : nat) : bool := existsb (Nat.eqb m) (dead s).
Definition getn (s : ptrs) (m : nat) : outcome (option nat) := if isdead s m then Undef else Ok (nxt s m).
Definition setn (s : ptrs) (m : nat) (v : option nat) : outcome ptrs :=
  if isdead s m then Undef else Ok (mkP (fun k => if k =? m then v else nxt s k) (newM s) (curQ s) (dead s)).

(** msgQueue.cpp:114-134: postMessage.  A message whose next pointer is set is not posted (116). *)
Definition post (m : nat) (s : ptrs) : outcome ptrs :=
  let! (n : option nat) := getn s m in
  match n with
  | Some _ => Ok s
  | None => let! s1 := setn s m (newM s) in Ok (mkP (nxt s1) (Some m) (curQ s1) (dead s1))
  end.

(** msgQueue.cpp:79-88: the loop that reverses the list; [r] is revQ *)
Fixpoint reverse (fuel : nat) (p r : option nat) (s : ptrs) : outcome (option nat * ptrs) :=
  match p with
  | None => Ok (r, s)
  | Some m =>
      match fuel with
      | O => NoFuel
      | S f =>
          let! (q : option nat) := getn s m in
          let! s1 := setn s m r in
          reverse f q (Some m) s1
      end
  end.
(** msgQueue.cpp:93-113: appendQueue *)
Fixpoint last_ (fuel : nat) (q : nat) (s : ptrs) : outcome nat :=
  let! (n : option nat) := getn s q in
  match n with None => Ok q | Some k => match fuel with O => NoFuel | S f => last_ f k s end end.
Definition append (fuel : nat) (p : option nat) (s : ptrs) : outcome ptrs :=
  match curQ s with
  | None => Ok (mkP (nxt s) (newM s) p (dead s))
  | Some q => let! e := last_ fuel q s in setn s e p
  end.
(** msgQueue.cpp:64-92 *)
Definition prepare (fuel : nat) (s : ptrs) : outcome ptrs :=
  let! (r, s1) := reverse fuel (newM s) None (mkP (nxt s) None (curQ s) (dead s)) in
  append fuel r s1.
(** msgQueue.cpp:154-175: getNextMsg *)
Definition getNext (fuel : nat) (s : ptrs) : outcome (option nat * ptrs) :=
  let! s1 := match curQ s with None => prepare fuel s | Some _ => Ok s end in
  match curQ s1 with
  | None => Ok (None, s1)
  | Some m =>
      let! (n : option nat) := getn s1 m in
      let! s2 := setn (mkP (nxt s1) (newM s1) n (dead s1)) m None in
      Ok (Some m, s2)
  end.
(** msgQueue.cpp:185-192: pumpMessage; run() does not touch the queue, done() destroys the message
    (msgQueue.h:135) *)
Definition pump (fuel : nat) (s : ptrs) : outcome (option nat * ptrs) :=
  let! (m, s1) := getNext fuel s in
  match m with
  | None => Ok (None, s1)
  | Some x => if isdead s1 x then Undef else Ok (Some x, mkP (nxt s1) (newM s1) (curQ s1) (x :: dead s1))
  end.
Fixpoint posts (l : list nat) (s : ptrs) : outcome ptrs :=
  match l with [] => Ok s | m :: t => let! s1 := post m s in posts t s1 end.
Fixpoint pumps (fuel n : nat) (s : ptrs) : outcome (list (option nat)) :=
  match n with O => Ok [] | S k => let! (m, s1) := pump fuel s in let! r := pumps fuel k s1 in Ok (m :: r) end.
