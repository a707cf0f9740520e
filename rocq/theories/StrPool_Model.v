(** Model of the string pool: base/containers/stringpool.h and stringpool.tcc.

    The characters are numbers.  Whether the array of the pool (AutoArray) moves to another block when it grows or shrinks is
    decided by the allocator: it is a parameter [mv] of the operations.  Blocks are numbered, a block
    that was left is gone. *)
From Coq Require Import ZArith.
From Verif Require Import Common StrPool_Spec.
Open Scope Z_scope.

(** stringpool.h:169-170: [blk] is the block of the array [pool], [items] are its characters, [ref] is poolRef; it is not
    initialised by the constructor ([None]).  References hold the address of poolRef, not its value (45, 47). *)
Record pool := mkPool { blk : nat; items : list Z; ref : option nat }.
Definition empty_pool : pool := mkPool 0 [] None.
Definition size (p : pool) : Z := Z.of_nat (length (items p)).
(** Bin::natural32(x) *)
Definition n32 (x : Z) : Z := x mod 2 ^ 32.

(** AutoArray::add and append *)
Definition grow (mv : bool) (c : list Z) (p : pool) : pool := mkPool (if mv then S (blk p) else blk p) (items p ++ c) (ref p).
(** stringpool.tcc:26-29: [z] is needZeroChar (constStr.h:21, 41) *)
Definition zero (z mv : bool) (p : pool) : pool := if z then grow mv [0] p else p.
(** poolRef = pool.data() *)
Definition setref (p : pool) : pool := mkPool (blk p) (items p) (Some (blk p)).

(** stringpool.tcc:19-33: add of a string that is not in the pool *)
Definition add (z : bool) (s : list Z) (mv mv' : bool) (p : pool) : pool * sref :=
  match s with
  | [] => (p, mkRef 0 0)
  | _ => (setref (zero z mv' (grow mv s p)), mkRef (n32 (size p)) (n32 (Z.of_nat (length s))))
  end.
(** stringpool.tcc:21-24: add of a string that is in the pool, from offset [o] *)
Definition addIn (o l : Z) (p : pool) : sref := if l =? 0 then mkRef 0 0 else mkRef (n32 o) (n32 l).
(** stringpool.tcc:36-38 *)
Definition fromMark (m : Z) (p : pool) : sref := mkRef (n32 m) (n32 (size p - m)).
(** stringpool.tcc:41-44 *)
Definition clear (p : pool) : pool := setref (mkPool (blk p) [] (ref p)).
(** stringpool.tcc:53-56 *)
Definition freeExtra (mv : bool) (p : pool) : pool := setref (grow mv [] p).
(** stringpool.tcc:64-69 *)
Definition release (m : Z) (p : pool) : pool :=
  if m <? size p then setref (mkPool (blk p) (firstn (Z.to_nat m) (items p)) (ref p)) else p.
(** the characters of an iterator, each with the choice of the allocator *)
Fixpoint addAll (c : list (Z * bool)) (p : pool) : pool :=
  match c with [] => p | (x, mv) :: t => addAll t (grow mv [x] p) end.
(** stringpool.tcc:73-84: add(IIterator &) *)
Definition addIter (z : bool) (c : list (Z * bool)) (mv : bool) (p : pool) : pool * sref :=
  let p1 := zero z mv (setref (addAll c p)) in (setref p1, mkRef (n32 (size p)) (n32 (size p1 - size p))).
(** stringpool.tcc:88-101: add(const IIterator &) *)
Definition addConst (z : bool) (c : list (Z * bool)) (mv : bool) (p : pool) : pool * sref :=
  let p1 := addAll c p in (setref (zero z mv p1), mkRef (n32 (size p)) (n32 (size p1 - size p))).
(** stringpool.h:151-162, stringpool.tcc:104-116: WriteIterator; [k] is startMark, finish gives the reference and the new startMark *)
Definition write (x : Z) (mv : bool) (p : pool) : pool := grow mv [x] p.
Definition finish (z : bool) (k : Z) (mv : bool) (p : pool) : pool * sref * Z :=
  let p1 := setref (zero z mv p) in (p1, mkRef (n32 k) (n32 (size p - k)), size p1).

(** stringpool.h:47: data(); the value is a block and an offset in it *)
Definition data (r : sref) (p : pool) : outcome (nat * Z) := match ref p with Some b => Ok (b, off r) | None => Undef end.
(** reading the characters of a reference; reading a block that is gone or behind the end is undefined *)
Definition read (r : sref) (p : pool) : outcome (list Z) :=
  if len r =? 0 then Ok []
  else let! (b, o) := data r p in
       if ((b =? blk p)%nat && (o + len r <=? size p))%bool then Ok (firstn (Z.to_nat (len r)) (skipn (Z.to_nat o) (items p))) else Undef.

(** What a user does.  [AddPart i o l]: a part of the string of reference number [i] is added again. [Writes w]: strings are
    written by one WriteIterator, each is followed by finish(). *)
Inductive op := Add (s : list Z) (mv mv' : bool) | AddPart (i o l : nat) | AddConst (c : list (Z * bool)) (mv : bool)
| Writes (w : list (list (Z * bool) * bool)) | Release (m : Z) | FreeExtra (mv : bool) | Clear.
Fixpoint writes (c : list (Z * bool)) (p : pool) : pool := match c with [] => p | (x, mv) :: t => writes t (write x mv p) end.
Definition chars (c : list (Z * bool)) : list Z := map fst c.
Fixpoint session (z : bool) (k : Z) (w : list (list (Z * bool) * bool)) (p : pool) (b : book) : pool * book :=
  match w with
  | [] => (p, b)
  | (c, mv) :: t => let '(p1, r, k1) := finish z k mv (writes c p) in session z k1 t p1 ((r, chars c, true) :: b)
  end.
(** [None]: the documented limit of 2^32 characters (stringpool.h:16-19) is exceeded, or the part is none. *)
Definition exec (z : bool) (o : op) (s : pool * book) : option (pool * book) :=
  let (p, b) := s in
  let limit (p' : pool) (b' : book) := if size p' <? 2 ^ 32 then Some (p', b') else None in
  match o with
  | Add t mv mv' => let (p', r) := add z t mv mv' p in limit p' ((r, t, true) :: b)
  | AddPart i k l =>
      match nth_error b i with
      | Some (r, t, _) =>
          if (k + l <=? length t)%nat then limit p ((addIn (off r + Z.of_nat k) (Z.of_nat l) p, part k l t, false) :: b) else None
      | None => None
      end
  | AddConst c mv => let (p', r) := addConst z c mv p in limit p' ((r, chars c, true) :: b)
  | Writes w => let (p', b') := session z (size p) w p b in limit p' b'
  | Release m => if m <? 0 then None else limit (release m p) (filter (older z m) b)
  | FreeExtra mv => limit (freeExtra mv p) b
  | Clear => limit (clear p) []
  end.
Fixpoint run (z : bool) (l : list op) (s : pool * book) : option (pool * book) :=
  match l with [] => Some s | o :: t => match exec z o s with Some s' => run z t s' | None => None end end.
