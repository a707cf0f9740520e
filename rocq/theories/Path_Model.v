(** Model of FilePath (src/lightspeed/utils/FilePath.h, utils/linux/FilePath.cpp, utils/windows/FilePath.cpp).

    The separators of both configurations have one character, the same for directories and for
    the root; this is the parameter [sep].  Simplified: expressions hold references to their
    parts, here the parts themselves; the conversion of byte strings to wide strings is treated
    in Utf_Model; the remembered position of the separator is updated by the queries but
    not by expressions built from the path. *)
From Coq Require Import ZArith List Bool.
From Verif Require Import Common Path_Spec.
Import ListNotations.
Local Open Scope Z_scope.

Definition teq (a b : list Z) : bool := if list_eq_dec Z.eq_dec a b then true else false.
(** arrayt.h:495-500, 506-518 for a pattern of one character *)
Fixpoint find (c : Z) (t : list Z) : option nat :=
  match t with [] => None | d :: t => if d =? c then Some O else match find c t with Some n => Some (S n) | None => None end end.
(** arrayt.h:555-560: the first one of the reversed text *)
Definition findLast (c : Z) (t : list Z) : option nat :=
  match find c (rev t) with Some p => Some (length t - p - 1)%nat | None => None end.
(** arrayt.h:277-280, 285-288, 293-296 *)
Definition head (t : list Z) (n : nat) : list Z := firstn n t.
Definition offset (t : list Z) (n : nat) : list Z := skipn n t.
Definition tail (t : list Z) (n : nat) : list Z := skipn (length t - n) t.

(** FilePath.h:300-301: the text and the remembered position of the last separator;
    the default constructor leaves it unset (line 237) *)
Inductive cache := Unset | Null | At (n : nat).
Record fp := mkF { txt : list Z; pos : cache }.
(** FilePath.h:237, 326-329, 331-339 *)
Definition newPath : fp := mkF [] Unset.
Definition mkPath (t : list Z) : fp := mkF t Null.
Definition mkPathDir (sep : Z) (t : list Z) (isDirectory : bool) : fp :=
  mkF (if isDirectory && negb (teq (tail t 1) [sep]) then t ++ [sep] else t) Null.
(** FilePath.h:343-349 *)
Definition assign (f g : fp) : fp := mkF (txt g) Null.

(** FilePath.h:351-359; the path and the object afterwards *)
Definition getPath (sep : Z) (f : fp) : outcome (list Z * fp) :=
  if teq (tail (txt f) 2) dots then Ok (txt f, f)
  else match pos f with
  | Unset => Undef
  | At n => Ok (head (txt f) n, f)
  | Null =>
      match findLast sep (txt f) with
      | None => Ok ([], f)
      | Some n => Ok (head (txt f) n, mkF (txt f) (At n))
      end
  end.
(** FilePath.h:361-365 *)
Definition getFilename (sep : Z) (f : fp) : outcome (list Z * fp) :=
  let! (p, f) := getPath sep f in Ok (offset (txt f) (length p + 1), f).
(** FilePath.h:367-372 *)
Definition getDrive (sep : Z) (f : fp) : list Z :=
  match find sep (txt f) with None => [] | Some p => head (txt f) p end.
(** FilePath.h:374-380 *)
Definition getTitle (sep : Z) (f : fp) : outcome (list Z * fp) :=
  let! (n, f) := getFilename sep f in
  Ok (match findLast 46 n with None => n | Some p => head n p end, f).
(** FilePath.h:382-388 *)
Definition getExtension (sep : Z) (f : fp) : outcome (list Z * fp) :=
  let! (n, f) := getFilename sep f in
  Ok (match findLast 46 n with None => [] | Some p => offset n (p + 1) end, f).
(** FilePath.h:390-396 *)
Definition getParentPath (sep : Z) (f : fp) : outcome (list Z * fp) :=
  let! (p, f) := getPath sep f in
  Ok (match findLast sep p with None => [] | Some n => head p n end, f).

(** FilePath.h:284-297; the text that is left and the parents not yet skipped *)
Fixpoint calcParents (sep : Z) (z : list Z) (p : nat) (abs : bool) : list Z * nat :=
  match p with
  | O => (z, O)
  | S p' =>
      match z with
      | [] => ([], if abs then O else p)
      | _ => calcParents sep (match findLast sep z with None => [] | Some n => head z n end) p' abs
      end
  end.

(** FilePath.h:58-62 *)
Definition driveAbs (sep : Z) (h : list Z) : bool := match find sep h with Some O => true | _ => false end.
Definition isAbs (sep : Z) (nodrive : bool) (h : list Z) : bool :=
  if nodrive then driveAbs sep h else match find sep h with Some _ => true | None => false end.
(** FilePath.h:100-106, 144-146, 187-189, 226-228 *)
Fixpoint drive (sep : Z) (nodrive : bool) (e : expr fp) : list Z :=
  match e with
  | Base f => getDrive sep f
  | Name e h => if isAbs sep nodrive h then head h (match find sep h with Some n => n | None => O end) else drive sep nodrive e
  | Parent e | Folder e => drive sep nodrive e
  end.
(** FilePath.h:65-85, 137-140, 167-176, 218-221, 276-280: what is written, and the
    parents not yet skipped *)
Fixpoint writePath (sep : Z) (nodrive : bool) (e : expr fp) (s : nat) : outcome (list Z * nat) :=
  match e with
  | Base f => let! (p, _) := getPath sep f in Ok (calcParents sep p s true)
  | Name e h =>
      let (p, s) := calcParents sep h s (isAbs sep nodrive h || driveAbs sep h) in
      if isAbs sep nodrive h then Ok (p, s)
      else if driveAbs sep h then Ok (drive sep nodrive e ++ [sep] ++ p, s)
      else let! (w, s) := writePath sep nodrive e s in Ok (w ++ [sep] ++ p, s)
  | Parent e =>
      let! (w, s) := writePath sep nodrive e (S s) in
      match s with O => Ok (w, O) | S s => Ok (w ++ [sep] ++ dots, s) end
  | Folder e => writePath sep nodrive e s
  end.
(** FilePath.h:89-99, 141-143, 177-186, 222-224, 271-274 *)
Fixpoint pathLength (sep : Z) (nodrive : bool) (e : expr fp) (s : nat) : outcome (nat * nat) :=
  match e with
  | Base f => let! (p, _) := getPath sep f in let (h, s) := calcParents sep p s true in Ok (length h, s)
  | Name e h =>
      let (p, s) := calcParents sep h s (isAbs sep nodrive h || driveAbs sep h) in
      if isAbs sep nodrive h then Ok (length p, s)
      else if driveAbs sep h then Ok (length p + 1 + length (drive sep nodrive e), s)%nat
      else let! (n, s) := pathLength sep nodrive e s in Ok (n + 1 + length p, s)%nat
  | Parent e =>
      let! (n, s) := pathLength sep nodrive e (S s) in
      match s with O => Ok (n, O) | S s => Ok (n + 1 + 2, s)%nat end
  | Folder e => pathLength sep nodrive e s
  end.
(** FilePath.h:87, 119, 163, 214, 282 and 307-317 with 241-244; the writer throws if the text
    does not fit (stringBase.h:234-249) *)
Definition isFolder (e : expr fp) : bool := match e with Parent _ | Folder _ => true | _ => false end.
Definition loadPath (sep : Z) (nodrive : bool) (e : expr fp) : outcome fp :=
  let! (n, s) := pathLength sep nodrive e O in
  let n := (if isFolder e then n + 1 else n)%nat in
  let! (w, _) := writePath sep nodrive e s in
  let w := if isFolder e then w ++ [sep] else w in
  if (n <? length w)%nat then Throw else Ok (mkF w Null).

(** the queries, one after another *)
Inductive query := QPath | QName | QTitle | QExt | QParent.
Definition ask (sep : Z) (q : query) (f : fp) : outcome (list Z * fp) :=
  match q with
  | QPath => getPath sep f | QName => getFilename sep f | QTitle => getTitle sep f
  | QExt => getExtension sep f | QParent => getParentPath sep f
  end.
Fixpoint asks (sep : Z) (qs : list query) (f : fp) : outcome (list (list Z)) :=
  match qs with
  | [] => Ok []
  | q :: qs => let! (a, f) := ask sep q f in let! l := asks sep qs f in Ok (a :: l)
  end.
