(** Model of /repo/src/lightspeed/base/containers/optional.h.
    Objects of T have identities; the buffer of an Optional is the identity of the object last built there, _x is a flag.
    Simplified: moving from an object copies its value (std::move of T), the moved-from object stays alive; alignment of the buffer is ignored;
    operator=(Optional &&) (136-149) calls [constuct] and does not compile, it is left out. *)
From Coq Require Import List Arith.
From Verif Require Import Common Opt_Spec.
Import ListNotations.

(** optional.h:192-193: buffer, _x *)
Record slot := mkSl { buf : option nat; armed : bool }.
Record st := mkSt { nxt : nat; live : nat -> option val; opt : nat -> option slot }.
Definition init : st := mkSt 0 (fun _ => None) (fun _ => None).
Definition put (s : st) (o : nat) (x : option slot) : st := mkSt (nxt s) (live s) (fun q => if Nat.eqb q o then x else opt s q).
Definition ret := (res * list ev * st)%type.

(** optional.h:202-209: get(), the object in the buffer when it is read *)
Definition read (s : st) (x : slot) : outcome val :=
  match buf x with None => Undef | Some i => match live s i with None => Undef | Some v => Ok v end end.
(** optional.h:211-213: destruct() *)
Definition kill (s : st) (x : slot) : outcome (list ev * st) :=
  match buf x with
  | None => Undef
  | Some i => match live s i with None => Undef | Some _ => Ok ([EKill i], mkSt (nxt s) (fun j => if Nat.eqb j i then None else live s j) (opt s)) end
  end.
(** a reference taken by the caller, by value() (180-187): the Optional must hold a value *)
Definition refer (s : st) (x : src) : option res :=
  match x with
  | SVal _ => None
  | SValOf p | SPartOf p => match opt s p with None => Some RBad | Some y => if armed y then None else Some RNull end
  end.
(** reading what the reference points to *)
Definition load (s : st) (x : src) : outcome val :=
  match x with
  | SVal v => Ok v
  | SValOf p => match opt s p with None => Undef | Some y => read s y end
  | SPartOf p => match opt s p with None => Undef | Some y => let! v := read s y in Ok (tl v) end
  end.
(** optional.h:215-226 construct() in the buffer of [o], then arm() (195-197); the slot stays as it was before when the constructor throws *)
Definition build (s : st) (o : nat) (v : val) : list ev * st :=
  let i := nxt s in
  ([EMk i v], put (mkSt (S i) (fun j => if Nat.eqb j i then Some v else live s j) (opt s)) o (Some (mkSl (Some i) true))).

(** optional.h:36-44 and 132-135: constructors from a value and from a Constructor; when T throws there is no Optional *)
Definition newVal (s : st) (o : nat) (x : src) (t : bool) : outcome ret :=
  match opt s o with
  | Some _ => Ok (RBad, [], s)
  | None =>
      match refer s x with
      | Some r => Ok (r, [], s)
      | None => let! v := load s x in if t then Ok (REx, [], s) else let z := build s o v in Ok (RUnit, fst z, snd z)
      end
  end.
(** optional.h:46-53 *)
Definition newCopy (s : st) (o p : nat) (t : bool) : outcome ret :=
  match opt s o, opt s p with
  | None, Some y =>
      if armed y then let! v := read s y in if t then Ok (REx, [], s) else let z := build s o v in Ok (RUnit, fst z, snd z)
      else Ok (RUnit, [], put s o (Some (mkSl None false)))
  | _, _ => Ok (RBad, [], s)
  end.
(** optional.h:62-68: _x is cleared first *)
Definition setNil (s : st) (o : nat) : outcome ret :=
  match opt s o with
  | None => Ok (RBad, [], s)
  | Some y =>
      if armed y then let! k := kill (put s o (Some (mkSl (buf y) false))) y in Ok (RUnit, fst k, snd k)
      else Ok (RUnit, [], s)
  end.
(** optional.h:123-131: the move constructor, then [other = nil] *)
Definition newMove (s : st) (o p : nat) (t : bool) : outcome ret :=
  match opt s o, opt s p with
  | None, Some y =>
      if armed y then
        let! v := read s y in
        if t then Ok (REx, [], s) else
        let z := build s o v in
        let! k := setNil (snd z) p in Ok (RUnit, snd (fst k) ++ fst z, snd k)
      else let! k := setNil (put s o (Some (mkSl None false))) p in Ok (RUnit, snd (fst k), snd k)
  | _, _ => Ok (RBad, [], s)
  end.
(** optional.h:55-59 *)
Definition del (s : st) (o : nat) : outcome ret :=
  match opt s o with
  | None => Ok (RBad, [], s)
  | Some y => if armed y then let! k := kill s y in Ok (RUnit, fst k, put (snd k) o None) else Ok (RUnit, [], put s o None)
  end.
(** optional.h:84-92, 72-78: disarm, destruct, construct, arm *)
Definition replace (s : st) (o : nat) (y : slot) (x : src) (t : bool) : outcome ret :=
  let! k := (if armed y then kill (put s o (Some (mkSl (buf y) false))) y else Ok ([], s)) in
  let! v := load (snd k) x in
  if t then Ok (REx, fst k, snd k) else
  let z := build (snd k) o v in Ok (RUnit, fst z ++ fst k, snd z).
(** optional.h:83-93 *)
Definition setC (s : st) (o : nat) (x : src) (t : bool) : outcome ret :=
  match opt s o with
  | None => Ok (RBad, [], s)
  | Some y => match refer s x with Some r => Ok (r, [], s) | None => replace s o y x t end
  end.
(** optional.h:70-81, 111-122: nothing is done when the argument is the object in the buffer *)
Definition setVal (s : st) (o : nat) (x : src) (t : bool) : outcome ret :=
  match opt s o with
  | None => Ok (RBad, [], s)
  | Some y =>
      match refer s x with
      | Some r => Ok (r, [], s)
      | None => if (match x with SValOf p => Nat.eqb p o | _ => false end) then Ok (RUnit, [], s) else replace s o y x t
      end
  end.
(** optional.h:95-107 *)
Definition copy (s : st) (o p : nat) (t : bool) : outcome ret :=
  match opt s o, opt s p with
  | Some y, Some w =>
      if Nat.eqb o p then Ok (RUnit, [], s) else
      let! k := (if armed y then kill (put s o (Some (mkSl (buf y) false))) y else Ok ([], s)) in
      if armed w then
        let! v := read (snd k) w in
        if t then Ok (REx, fst k, snd k) else
        let z := build (snd k) o v in Ok (RUnit, fst z ++ fst k, snd z)
      else Ok (RUnit, fst k, snd k)
  | _, _ => Ok (RBad, [], s)
  end.
(** optional.h:153-161, 171-187 *)
Definition value (s : st) (o : nat) : outcome ret :=
  match opt s o with
  | None => Ok (RBad, [], s)
  | Some y => if armed y then let! v := read s y in Ok (RVal v, [], s) else Ok (RNull, [], s)
  end.
(** optional.h:163-169 *)
Definition isNil (s : st) (o : nat) : outcome ret :=
  match opt s o with None => Ok (RBad, [], s) | Some y => Ok (RBool (negb (armed y)), [], s) end.

Definition step (s : st) (p : op) : outcome ret :=
  match p with
  | ONew o => match opt s o with Some _ => Ok (RBad, [], s) | None => Ok (RUnit, [], put s o (Some (mkSl None false))) end   (* optional.h:35, 45 *)
  | ONewVal o x t => newVal s o x t
  | ONewC o x t => newVal s o x t
  | ONewCopy o p t => newCopy s o p t
  | ONewMove o p t => newMove s o p t
  | ODel o => del s o
  | ONil o => setNil s o
  | OSet o x t => setVal s o x t
  | OSetC o x t => setC s o x t
  | OCopy o p t => copy s o p t
  | OValue o => value s o
  | OIsNil o => isNil s o
  end.
(** a program: its answers and the objects made and destroyed, newest first *)
Fixpoint runs (s : st) (l : list op) : outcome (list res * list ev * st) :=
  match l with
  | [] => Ok ([], [], s)
  | p :: l =>
      let! r := step s p in
      let! z := runs (snd r) l in
      Ok (fst (fst r) :: fst (fst z), snd (fst z) ++ snd (fst r), snd z)
  end.
