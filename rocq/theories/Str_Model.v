(** Model of the strings with shared buffers: StringBufferHdr, PStringBufferHdr and
    StringCore (src/lightspeed/base/containers/stringBase.h), with the counted pointer
    RefCntPtr (base/memory/refCntPtr.h) written out, and of the comparisons of strings.

    [nz] is StringBase<T>::needZeroChar, true for char and wchar_t, false for byte
    (constStr.h:18-69).  Buffers are addressed by their position in the heap; a freed buffer
    is [None].  Variables hold a pointer to a buffer or null.  Use of a freed or missing
    buffer is [Undef], as is an access outside the characters of a buffer.  One thread. *)
From Coq Require Import ZArith.
From Verif Require Import Common Str_Spec.
Local Open Scope Z_scope.

(** stringBase.h:10-15: reference counter, charCount; the characters stored so far, whose
    number is initCount.  The allocator is not modelled. *)
Record buf := mkBuf { cnt : nat; cap : nat; txt : list Z }.
Record state := mkState { heap : list (option buf); vars : list (option nat) }.

Definition bget (h : list (option buf)) (p : nat) : outcome buf :=
  match nth p h None with Some b => Ok b | None => Undef end.
(** refCntPtr.h:20 and stringBase.h:44-53: a new object with the counter 0 *)
Definition balloc (h : list (option buf)) (cap : nat) (t : list Z) : list (option buf) * nat :=
  (h ++ [Some (mkBuf 0 cap t)], length h).
(** refCntPtr.h:287-306: addRefPtr and releasePtr; the object is destroyed at the count 0 *)
Definition addRef (h : list (option buf)) (p : option nat) : outcome (list (option buf)) :=
  match p with
  | None => Ok h
  | Some p => let! b := bget h p in Ok (upd h p (Some (mkBuf (S (cnt b)) (cap b) (txt b))))
  end.
Definition release (h : list (option buf)) (p : option nat) : outcome (list (option buf)) :=
  match p with
  | None => Ok h
  | Some p =>
      let! b := bget h p in
      match cnt b with
      | O => Undef
      | S O => Ok (upd h p None)
      | S n => Ok (upd h p (Some (mkBuf n (cap b) (txt b))))
      end
  end.
(** refCntPtr.h:150-156: operator= from a pointer of another object: add a reference to the other,
    release the own one, take the pointer *)
Definition setPtr (h : list (option buf)) (old new : option nat) : outcome (list (option buf)) :=
  let! h := addRef h new in release h old.

(** stringBase.h:100-124: add and init, only as many as still fit *)
Definition badd (b : buf) (t : list Z) : buf :=
  mkBuf (cnt b) (cap b) (txt b ++ firstn (cap b - length (txt b)) t).

Section Strings.
  Variable nz : bool.

  (** constStr.h:27-28, 54-55 (without and with a zero): stringLen and originalLen; a natural wraps *)
  Definition stringLen (n : nat) : nat := if nz then S n else n.
  Definition originalLen (n : nat) : Z := if nz then (Z.of_nat n - 1) mod 2 ^ 64 else Z.of_nat n.

  Definition ptr (s : state) (v : nat) : option nat := nth v (vars s) None.
  (** v = x for a pointer x that is held by a temporary *)
  Definition takeTemp (s : state) (h : list (option buf)) (v p : nat) : outcome state :=
    let! h := setPtr h (ptr s v) (Some p) in
    let! h := release h (Some p) in
    Ok (mkState h (upd (vars s) v (Some p))).

  (** stringBase.h:93-98: copyString, held by a temporary, and 160-162: isolate *)
  Definition isolate (s : state) (v : nat) : outcome state :=
    match ptr s v with
    | None => Ok s
    | Some p =>
        let! b := bget (heap s) p in
        if (1 <? cnt b)%nat then
          let (h, q) := balloc (heap s) (length (txt b)) (txt b) in
          let! h := addRef h (Some q) in
          takeTemp s h v q
        else Ok s
    end.

  (** stringBase.h:290-299: createBufferIter; the result is referred by the variable and by
      the iterator *)
  Definition createBufferIter (s : state) (v n : nat) : outcome (state * nat) :=
    let (h, q) := balloc (heap s) (stringLen n) [] in
    let! h := addRef h (Some q) in
    let! h := setPtr h (ptr s v) (Some q) in
    let s := mkState h (upd (vars s) v (Some q)) in
    let! h := addRef (heap s) (Some q) in
    let! h := release h (Some q) in
    Ok (mkState h (vars s), q).
  (** stringBase.h:203-209: hasItems and write of the iterator *)
  Definition hasItems (b : buf) : bool := (length (txt b) <? cap b - (if nz then 1 else 0))%nat.
  Definition write (s : state) (q : nat) (c : Z) : outcome state :=
    let! b := bget (heap s) q in Ok (mkState (upd (heap s) q (Some (badd b [c]))) (vars s)).
  (** arrayt.h:465-472: the text is written as long as there is space *)
  Fixpoint render (s : state) (q : nat) (t : list Z) : outcome state :=
    match t with
    | [] => Ok s
    | c :: t =>
        let! b := bget (heap s) q in
        if hasItems b then let! s := write s q c in render s q t else Ok s
    end.
  (** stringBase.h:211-214: the last copy of the iterator writes the zero and is gone *)
  Definition endIter (s : state) (q : nat) : outcome state :=
    let! s := (if nz then write s q 0 else Ok s) in
    let! h := release (heap s) (Some q) in Ok (mkState h (vars s)).

  (** stringBase.h:404-407: loadArray into a new string, which is then assigned to the variable; the
      temporary string is the variable [length (vars s)] *)
  Definition load (s : state) (v : nat) (t : list Z) : outcome state :=
    let tmp := length (vars s) in
    let! (s, q) := createBufferIter (mkState (heap s) (vars s ++ [None])) tmp (length t) in
    let! s := render s q t in
    let! s := endIter s q in
    let! h := setPtr (heap s) (ptr s v) (ptr s tmp) in
    let! h := release h (ptr s tmp) in
    Ok (mkState h (removelast (upd (vars s) v (ptr s tmp)))).

  (** operator= of the compiler, refCntPtr.h:150-156; if both are the same object, the
      pointer is null when it is read again *)
  Definition assign (s : state) (v w : nat) : outcome state :=
    let! h := addRef (heap s) (ptr s w) in
    let! h := release h (ptr s v) in
    Ok (mkState h (upd (vars s) v (if (v =? w)%nat then None else ptr s w))).
  (** stringBase.h:329-331 *)
  Definition clear (s : state) (v : nat) : outcome state :=
    let! h := release (heap s) (ptr s v) in Ok (mkState h (upd (vars s) v None)).
  (** stringBase.h:371-375: res shares the buffer, is isolated and then assigned; the result is the
      variable [length (vars s)] *)
  Definition copy (s : state) (v w : nat) : outcome state :=
    let res := length (vars s) in
    let! h := addRef (heap s) (ptr s w) in
    let! s := isolate (mkState h (vars s ++ [ptr s w])) res in
    let! h := setPtr (heap s) (ptr s v) (ptr s res) in
    let! h := release h (ptr s res) in
    Ok (mkState h (removelast (upd (vars s) v (ptr s res)))).
  (** stringBase.h:392-394: a string that shares the buffer, which is then assigned *)
  Definition getMT (s : state) (v w : nat) : outcome state :=
    let p := ptr s w in
    let! h := addRef (heap s) p in
    let! h := setPtr h (ptr s v) p in
    let! h := release h p in
    Ok (mkState h (upd (vars s) v p)).
  (** stringBase.h:319-323: data() isolates; then one character is stored through the pointer *)
  Definition poke (s : state) (v i : nat) (c : Z) : outcome state :=
    match ptr s v with
    | None => Undef
    | Some p =>
        let! b := bget (heap s) p in
        if (i <? length (txt b))%nat then
          Ok (mkState (upd (heap s) p (Some (mkBuf (cnt b) (cap b) (upd (txt b) i c)))) (vars s))
        else Undef
    end.
  Definition put (s : state) (v i : nat) (c : Z) : outcome state :=
    let! s := isolate s v in poke s v i c.
  (** stringBase.h:119-124: init, the new characters are taken as zeros *)
  Definition init (s : state) (q n : nat) : outcome state :=
    let! b := bget (heap s) q in
    Ok (mkState (upd (heap s) q (Some (badd b (repeat 0 n)))) (vars s)).
  (** the characters are stored through the pointer, from position i *)
  Fixpoint pokes (s : state) (v i : nat) (t : list Z) : outcome state :=
    match t with [] => Ok s | c :: t => let! s := poke s v i c in pokes s v (S i) t end.
  (** stringBase.h:301-311: createBuffer; data() is called while the iterator still exists *)
  Definition create (s : state) (v n : nat) (t : list Z) : outcome state :=
    let! (s, q) := createBufferIter s v n in
    let! s := init s q n in
    let! s := isolate s v in
    let! s := endIter s q in
    pokes s v 0 t.
  (** createBufferIter(n); the text is written with a check of hasItems before every write *)
  Definition stream (s : state) (v n : nat) (t : list Z) : outcome state :=
    let! (s, q) := createBufferIter s v n in
    let! s := render s q t in
    endIter s q.

  (** createBufferIter(n); the text is written without any check *)
  Fixpoint writes (s : state) (q : nat) (t : list Z) : outcome state :=
    match t with [] => Ok s | c :: t => let! s := write s q c in writes s q t end.
  Definition pour (s : state) (v n : nat) (t : list Z) : outcome state :=
    let! (s, q) := createBufferIter s v n in
    let! s := writes s q t in
    endIter s q.

  (** stringBase.h:313-318: length and data; a string of length 0 is never read *)
  Definition len (s : state) (v : nat) : outcome Z :=
    match ptr s v with
    | None => Ok 0
    | Some p => let! b := bget (heap s) p in Ok (originalLen (length (txt b)))
    end.
  Definition read (s : state) (v : nat) : outcome (list Z) :=
    let! n := len s v in
    if n =? 0 then Ok []
    else match ptr s v with
         | None => Undef
         | Some p => let! b := bget (heap s) p in
                     if Z.of_nat (length (txt b)) <? n then Undef else Ok (firstn (Z.to_nat n) (txt b))
         end.
  (** a C string is read up to its first zero *)
  Fixpoint cscan (t : list Z) : outcome (list Z) :=
    match t with [] => Undef | c :: t => if c =? 0 then Ok [] else let! l := cscan t in Ok (c :: l) end.
  (** stringBase.h:280-283: c_str *)
  Definition c_str (s : state) (v : nat) : outcome (list Z) :=
    let! n := len s v in
    if n =? 0 then Ok []
    else match ptr s v with
         | None => Undef
         | Some p => let! b := bget (heap s) p in cscan (txt b)
         end.

  Definition step (o : op) (s : state) : outcome (state * list Z) :=
    match o with
    | Load v t => let! s := load s v t in Ok (s, [])
    | Assign v w => let! s := assign s v w in Ok (s, [])
    | Clear v => let! s := clear s v in Ok (s, [])
    | Isolate v => let! s := isolate s v in Ok (s, [])
    | Copy v w => let! s := copy s v w in Ok (s, [])
    | GetMT v w => let! s := getMT s v w in Ok (s, [])
    | Put v i c => let! s := put s v i c in Ok (s, [])
    | Stream v n t => let! s := stream s v n t in Ok (s, [])
    | Create v n t => let! s := create s v n t in Ok (s, [])
    | Read v => let! t := read s v in Ok (s, t)
    | CStr v => let! t := c_str s v in Ok (s, t)
    end.
  Fixpoint run (os : list op) (s : state) : outcome (state * list (list Z)) :=
    match os with
    | [] => Ok (s, [])
    | o :: os => let! (s, a) := step o s in let! (s, l) := run os s in Ok (s, a :: l)
    end.
  (** [n] variables that are constructed empty *)
  Definition start (n : nat) : state := mkState [] (repeat None n).
End Strings.

(** string.tcc:30-44: StrCmpCS *)
Fixpoint cmpLoop (c : nat) (a b : list Z) : option comparison :=
  match c, a, b with
  | O, _, _ => None
  | S c, x :: a, y :: b => if y <? x then Some Gt else if x <? y then Some Lt else cmpLoop c a b
  | _, _, _ => None
  end.
Definition strCmpCS (a b : list Z) : comparison :=
  let la := length a in let lb := length b in
  match cmpLoop (if (la <? lb)%nat then la else lb) a b with
  | Some r => r
  | None => if (lb <? la)%nat then Gt else if (la <? lb)%nat then Lt else Eq
  end.
(** strncasecmp of the C library in the C locale, characters as 0 to 255: stops at the first zero *)
Fixpoint strncasecmp (n : nat) (a b : list Z) : Z :=
  match n, a, b with
  | S n, x :: a, y :: b =>
      if negb (lower x =? lower y) then lower x - lower y else if x =? 0 then 0 else strncasecmp n a b
  | _, _, _ => 0
  end.
(** linux/string.cpp:29-39: StrCmpCI<char> *)
Definition strCmpCI (a b : list Z) : comparison :=
  let la := length a in let lb := length b in
  let n := Nat.min la lb in
  let res := strncasecmp n a b in
  if res =? 0 then (if (n =? la)%nat then (if (n =? lb)%nat then Eq else Lt) else Gt)
  else if res <? 0 then Lt else Gt.
(** string.h:133-145: the operators of StringTC test the result of the comparison *)
Definition is_eq (c : comparison) : bool := match c with Eq => true | _ => false end.
Definition is_lt (c : comparison) : bool := match c with Lt => true | _ => false end.
Definition is_gt (c : comparison) : bool := match c with Gt => true | _ => false end.
(** constStr.h:57, 184-187: a literal, an array with its closing zero *)
Definition makeCStr (arr : list Z) : list Z := if last arr 1 =? 0 then removelast arr else arr.
(** constStr.h:217-228: comparison of a ConstStringT with a literal *)
Definition litEq (a arr : list Z) : bool := is_eq (strCmpCS a (makeCStr arr)).
Definition litNe (a arr : list Z) : bool := negb (is_eq (strCmpCS a (makeCStr arr))).
Definition litGt (a arr : list Z) : bool := is_gt (strCmpCS a (makeCStr arr)).
Definition litLt (a arr : list Z) : bool := is_lt (strCmpCS a (makeCStr arr)).
Definition litGe (a arr : list Z) : bool := negb (is_lt (strCmpCS a (makeCStr arr))).
Definition litLe (a arr : list Z) : bool := negb (is_lt (strCmpCS a (makeCStr arr))).
