(** Model of the AVL tree: /repo/src/lightspeed/base/containers/avltreenode.h,
    avltreenode.tcc and avltree.h.

    A node is [Node i x b l r]: address [i], payload [x], field [balance] [b]
    and the two links.  The code rewrites the links in place and passes the new
    root of each subtree up; here a subtree is a value and a pointer to a node
    is the address of the node.  Following a pointer searches the address in
    the tree ([node]); an address that is not there is a dangling pointer.
    The flag [dirty] is never read by the modelled code and is left out, and
    [balance] (8 bits, only ever -2..2) is an integer. *)
From Verif Require Import Common.

Section Avl.
Context {A : Type}.

(** the compare operator [Cmp], true when the first item goes before the second *)
Variable lt : A -> A -> bool.

(** avltreenode.h:214-224 (fields), 47-48 (a new node has no children and balance 0) *)
Inductive tree : Type :=
| Leaf
| Node (i : nat) (x : A) (b : Z) (l r : tree).

Definition newNode (i : nat) (x : A) : tree := Node i x 0 Leaf Leaf.

(** avltreenode.h:208-209: [link], 0 (false) is left and 1 (true) is right.
    Only used where the pointer is known not to be null. *)
Definition link (d : bool) (t : tree) : tree :=
  match t with
  | Leaf => Leaf
  | Node _ _ _ l r => if d then r else l
  end.

(** assignment to [link(d)] of a node *)
Definition setLink (d : bool) (t : tree) (s : tree) : tree :=
  match t with
  | Leaf => Leaf
  | Node i x b l r => if d then Node i x b l s else Node i x b s r
  end.

(** assignment to [balance] *)
Definition setBal (t : tree) (b : Z) : tree :=
  match t with
  | Leaf => Leaf
  | Node i x _ l r => Node i x b l r
  end.

Definition bal (t : tree) : Z :=
  match t with Leaf => 0%Z | Node _ _ b _ _ => b end.

Definition isNull (t : tree) : bool :=
  match t with Leaf => true | _ => false end.

(** the address of the root of a subtree, [None] for the null pointer *)
Definition addr (t : tree) : option nat :=
  match t with Leaf => None | Node i _ _ _ _ => Some i end.

(** dereferencing a null pointer *)
Definition nonNull (t : tree) : outcome tree :=
  if isNull t then Undef else Ok t.

(** -1 for the left and 1 for the right direction: avltreenode.tcc:184, 198 *)
Definition sgn (d : bool) : Z := if d then 1%Z else (-1)%Z.

(** avltreenode.tcc:137-145 *)
Definition rotateSingle (d : bool) (t : tree) : outcome tree :=
  let! save := nonNull (link (negb d) t) in
  let t := setLink (negb d) t (link d save) in
  Ok (setLink d save t).

(** avltreenode.tcc:147-161 *)
Definition rotateDouble (d : bool) (t : tree) : outcome tree :=
  let! c := nonNull (link (negb d) t) in
  let! save := nonNull (link d c) in
  let c := setLink d c (link (negb d) save) in
  let save := setLink (negb d) save c in
  let t := setLink (negb d) t (link d save) in
  Ok (setLink d save t).

(** avltreenode.tcc:163-179 *)
Definition adjustBalance (d : bool) (b : Z) (t : tree) : outcome tree :=
  let! n := nonNull (link d t) in
  let! nn := nonNull (link (negb d) n) in
  let '(tb, nb) :=
    if (bal nn =? 0)%Z then (0, 0)%Z
    else if (bal nn =? b)%Z then ((- b), 0)%Z
    else (0, b)%Z in
  let nn := setBal nn 0 in
  let n := setBal (setLink (negb d) n nn) nb in
  Ok (setBal (setLink d t n) tb).

(** avltreenode.tcc:181-193 *)
Definition insertBalance (d : bool) (t : tree) : outcome tree :=
  let! n := nonNull (link d t) in
  if (bal n =? sgn d)%Z then
    rotateSingle (negb d) (setBal (setLink d t (setBal n 0)) 0)
  else
    let! t := adjustBalance d (sgn d) t in
    rotateDouble (negb d) t.

(** avltreenode.tcc:195-212; the flag is the new value of [done] *)
Definition removeBalance (d : bool) (t : tree) (done : bool) : outcome (tree * bool) :=
  let! n := nonNull (link (negb d) t) in
  if (bal n =? - sgn d)%Z then
    let! r := rotateSingle d (setBal (setLink (negb d) t (setBal n 0)) 0) in
    Ok (r, done)
  else if (bal n =? sgn d)%Z then
    let! t := adjustBalance (negb d) (- sgn d) t in
    let! r := rotateDouble d t in
    Ok (r, done)
  else
    let! r := rotateSingle d (setBal (setLink (negb d) t (setBal n (sgn d))) (- sgn d)) in
    Ok (r, true).

(** avltreenode.tcc:215-226 *)
Definition balanceAfterRemove (t : tree) (done : bool) (d : bool) : outcome (tree * bool) :=
  if done then Ok (t, done)
  else
    let! t := nonNull t in
    let t := setBal t (bal t - sgn d) in
    if (Z.abs (bal t) =? 1)%Z then Ok (t, true)
    else if (1 <? Z.abs (bal t))%Z then removeBalance d t done
    else Ok (t, done).

(** avltreenode.tcc:228-242; result: the new root, the node taken out and [done] *)
Fixpoint takeRightMost (t : tree) (done : bool) : outcome (tree * (nat * A) * bool) :=
  match t with
  | Leaf => Undef
  | Node i x b l Leaf => Ok (l, (i, x), done)
  | Node i x b l r =>
      let! (r', rm, done) := takeRightMost r done in
      let! (t', done) := balanceAfterRemove (Node i x b l r') done true in
      Ok (t', rm, done)
  end.

(** avltreenode.tcc:244-268 *)
Definition removeRootNode (t : tree) (done : bool) : outcome (tree * bool) :=
  match t with
  | Leaf => Undef
  | Node i x b l r =>
      if isNull l then Ok (r, done)
      else if isNull r then Ok (l, done)
      else
        let! (l', (i', x'), done) := takeRightMost l done in
        balanceAfterRemove (Node i' x' b l' r) done false
  end.

(** avltreenode.h:376-393: storing the new subtree and balancing *)
Definition insUp (d : bool) (t : tree) (sub : option tree * bool * list nat)
  : outcome (option tree * bool * list nat) :=
  match sub with
  | (None, done, p) =>
      match addr (link d t) with
      | Some a => Ok (None, done, a :: p)
      | None => Undef
      end
  | (Some nd, done, p) =>
      let t := setLink d t nd in
      let p := match addr nd with Some a => a :: p | None => p end in
      if done then Ok (Some t, done, p)
      else
        let t := setBal t (bal t + sgn d) in
        if (bal t =? 0)%Z then Ok (Some t, true, p)
        else if ((bal t <? -1) || (1 <? bal t))%Z then
          let! t := insertBalance d t in
          Ok (Some t, true, p)
        else Ok (Some t, done, p)
  end.

(** avltreenode.h:343-394 without the first slot of the path; the result is the
    new root ([None]: the null pointer, the item exists), [done] and the
    addresses stored to the slots of the path below this node, the highest
    first.  The slot of a level is filled after the return from the level
    below, before this level is balanced. *)
Fixpoint ins (i : nat) (x : A) (t : tree) (done : bool)
  : outcome (option tree * bool * list nat) :=
  match t with
  | Leaf => Ok (Some (newNode i x), done, [])
  | Node _ y _ l r =>
      if lt x y then
        let! sub := ins i x l done in insUp false t sub
      else if lt y x then
        let! sub := ins i x r done in insUp true t sub
      else Ok (None, done, [])
  end.

(** avltreenode.h:183 *)
Definition maxPathLen : nat := 64.

(** avltreenode.h:346-352 (the first slot of the path) and 293-297: a slot
    behind the end of the array is written when the path is full.  The path
    kept here has the deepest node first, as [getCurNode] reads the last one. *)
Definition insertNode (i : nat) (x : A) (t : tree) : outcome (option tree * list nat) :=
  let! (res, _, p) := ins i x t false in
  let top := match res with Some s => addr s | None => addr t end in
  match top with
  | None => Undef
  | Some a =>
      if maxPathLen <? length (a :: p) then Undef
      else Ok (res, rev (a :: p))
  end.

(** avltreenode.h:422-446; the result is the new root, the address of the
    removed node and [done] *)
Fixpoint removeVal (x : A) (t : tree) (done : bool) : outcome (tree * option nat * bool) :=
  match t with
  | Leaf => Ok (Leaf, None, true)
  | Node i y b l r =>
      if lt x y then
        let! (l', rm, done) := removeVal x l done in
        let! (t', done) := balanceAfterRemove (Node i y b l' r) done false in
        Ok (t', rm, done)
      else if lt y x then
        let! (r', rm, done) := removeVal x r done in
        let! (t', done) := balanceAfterRemove (Node i y b l r') done true in
        Ok (t', rm, done)
      else
        let! (t', done) := removeRootNode t done in
        Ok (t', Some i, done)
  end.

Definition eqAddr (a : option nat) (i : nat) : bool :=
  match a with Some j => j =? i | None => false end.

(** avltreenode.tcc:270-290: removing the node a path leads to; the list is the
    rest of the path from [pathIndex] on, the highest node first.  The call on
    a null pointer reads a field of it, or calls itself for ever at the end of
    the path. *)
Fixpoint removePath (p : list nat) (t : tree) (done : bool) : outcome (tree * bool) :=
  match t with
  | Leaf => Undef
  | Node i y b l r =>
      match p with
      | [] => removeRootNode t done
      | pos :: p' =>
          if pos =? i then removePath p' t done
          else if eqAddr (addr l) pos then
            let! (l', done) := removePath p' l done in
            balanceAfterRemove (Node i y b l' r) done false
          else
            let! (r', done) := removePath p' r done in
            balanceAfterRemove (Node i y b l r') done true
      end
  end.

(** the node behind an address *)
Fixpoint node (t : tree) (a : nat) : option tree :=
  match t with
  | Leaf => None
  | Node i _ _ l r =>
      if i =? a then Some t
      else match node l a with
           | Some s => Some s
           | None => node r a
           end
  end.

Definition deref (t : tree) (a : nat) : outcome tree :=
  match node t a with Some s => Ok s | None => Undef end.

(** avltreenode.tcc:110-117 *)
Fixpoint initPath (d : bool) (s : tree) (p : list nat) : list nat :=
  match s with
  | Leaf => p
  | Node i _ _ l r =>
      if length p <? maxPathLen then initPath d (if d then r else l) (i :: p) else p
  end.

(** avltreenode.tcc:127-133 *)
Fixpoint goUp (t : tree) (d : bool) (cur : nat) (p : list nat) : outcome (list nat) :=
  match p with
  | [] => Ok []
  | nx :: p' =>
      let! s := deref t nx in
      if eqAddr (addr (link d s)) cur then Ok p else goUp t d nx p'
  end.

(** avltreenode.tcc:119-135; a path of an iterator, the deepest node first *)
Definition goNext (t : tree) (d : bool) (p : list nat) : outcome (list nat) :=
  match p with
  | [] => Ok []
  | c :: p' =>
      let! s := deref t c in
      if negb (isNull (link (negb d) s)) && (length p <? maxPathLen)
      then Ok (initPath d (link (negb d) s) p)
      else goUp t d c p'
  end.

(** avltreenode.h:634-647; the path, the found flag and the last direction.  A
    path longer than the array is written behind its end. *)
Fixpoint searchPath (x : A) (s : tree) (p : list nat) (dir : bool)
  : outcome (list nat * bool * bool) :=
  match s with
  | Leaf => Ok (p, false, dir)
  | Node i y _ l r =>
      if length p <? maxPathLen then
        if lt x y then searchPath x l (i :: p) false
        else if lt y x then searchPath x r (i :: p) true
        else Ok (i :: p, true, dir)
      else Undef
  end.

(** An iterator: avltreenode.h:184-186 *)
Record iter := mkIter { path : list nat; idir : bool }.

(** avltreenode.h:628-648 and 619-626 (the constructor that searches) *)
Definition seekIter (t : tree) (x : A) (d : bool) : outcome (iter * bool) :=
  let! (p, found, dir) := searchPath x t [] false in
  if found then Ok (mkIter p d, true)
  else if Bool.eqb dir d then Ok (mkIter p d, false)
  else
    let! p := goNext t d p in
    Ok (mkIter p d, false).

(** avltreenode.tcc:18-24 *)
Definition firstIter (t : tree) (d : bool) : iter := mkIter (initPath d t []) d.

(** avltreenode.h:149 *)
Definition hasItems (it : iter) : bool :=
  match path it with [] => false | _ => true end.

(** avltreenode.tcc:71-75 and avltree.h:66-69 *)
Definition peek (t : tree) (it : iter) : outcome A :=
  match path it with
  | [] => Throw
  | a :: _ =>
      let! s := deref t a in
      match s with Node _ x _ _ _ => Ok x | Leaf => Undef end
  end.

(** avltreenode.tcc:77-83 and avltree.h:62-65 *)
Definition getNext (t : tree) (it : iter) : outcome (A * iter) :=
  let! x := peek t it in
  let! p := goNext t (idir it) (path it) in
  Ok (x, mkIter p (idir it)).

(** the usual loop [while (it.hasItems()) ... it.getNext()] *)
Fixpoint walk (fuel : nat) (t : tree) (it : iter) : outcome (list A) :=
  if hasItems it then
    match fuel with
    | O => NoFuel
    | S f =>
        let! (x, it) := getNext t it in
        let! l := walk f t it in
        Ok (x :: l)
    end
  else Ok [].

(** avltreenode.tcc:85-91 *)
Definition iterEqual (a b : iter) : bool :=
  if list_eq_dec Nat.eq_dec (path a) (path b) then true else false.

(** avltreenode.tcc:93-108; the paths are here the highest node first.  The
    slots of the array behind the path were never written (or hold a pointer
    of a former position): reading one is undefined. *)
Fixpoint lessPath (t : tree) (d : bool) (parent : option nat) (a b : list nat) : outcome bool :=
  match a, b with
  | [], [] => Ok false
  | x :: a', y :: b' =>
      if x =? y then lessPath t d (Some y) a' b'
      else match parent with
           | None => Ok false
           | Some q => let! s := deref t q in Ok (eqAddr (addr (link d s)) x)
           end
  | [], _ :: _ => match parent with None => Ok false | Some _ => Undef end
  | _ :: _, [] => match parent with None => Ok false | Some _ => Undef end
  end.

Definition lessThan (t : tree) (a b : iter) : outcome bool :=
  lessPath t (idir a) None (rev (path a)) (rev (path b)).

(** avltreenode.tcc:293-305 *)
Fixpoint maxHeight (t : tree) : nat :=
  match t with
  | Leaf => 0
  | Node _ _ b l r => S (if (b =? 1)%Z then maxHeight r else maxHeight l)
  end.

(** avltreenode.tcc:321-327 *)
Fixpoint nodeCount (t : tree) : nat :=
  match t with
  | Leaf => 0
  | Node _ _ _ l r => S (nodeCount l + nodeCount r)
  end.

(** avltreenode.tcc:307-319; a call on a null pointer reads its fields.
    Numbers do not overflow here. *)
Fixpoint aproxCount (t : tree) : outcome nat :=
  match t with
  | Leaf => Undef
  | Node _ _ b l r =>
      if isNull l then let! n := aproxCount r in Ok (n + 1)
      else if isNull r then let! n := aproxCount l in Ok (n + 1)
      else if (b =? 0)%Z then let! n := aproxCount l in Ok (1 + 2 * n)
      else if (b =? 1)%Z then let! n := aproxCount r in Ok (1 + (3 * n) / 2)
      else if (b =? -1)%Z then let! n := aproxCount l in Ok (1 + (3 * n) / 2)
      else Ok 1
  end.

(** The class AVLTree: avltree.h:417-421; [fresh] is the address the allocator
    returns next (addresses are not reused here). *)
Record avl := mkAvl { root : tree; count : nat; fresh : nat }.

(** avltree.h:116-120 *)
Definition emptyAvl : avl := mkAvl Leaf 0 0.

(** avltree.h:168-175 and 205-217; the flag says that the item existed.  The
    new node is then destroyed. *)
Definition insert (s : avl) (x : A) : outcome (avl * iter * bool) :=
  let! (res, p) := insertNode (fresh s) x (root s) in
  match res with
  | None => Ok (mkAvl (root s) (count s) (S (fresh s)), mkIter p false, true)
  | Some t => Ok (mkAvl t (S (count s)) (S (fresh s)), mkIter p false, false)
  end.

(** avltree.h:237-242: the item, as the returned pointer is used *)
Definition find (s : avl) (x : A) : outcome (option A) :=
  let! (it, found) := seekIter (root s) x false in
  if found then
    let! (y, _) := getNext (root s) it in
    Ok (Some y)
  else Ok None.

(** avltree.h:289-299 *)
Definition erase (s : avl) (x : A) : outcome (avl * bool) :=
  let! (t, rm, _) := removeVal x (root s) false in
  match rm with
  | Some _ => Ok (mkAvl t (pred (count s)) (fresh s), true)
  | None => Ok (mkAvl t (count s) (fresh s), false)
  end.

(** avltree.h:323-331 and 340-344: the iterator is moved to the next item *)
Definition eraseIter (s : avl) (it : iter) : outcome (avl * iter) :=
  let! x := peek (root s) it in
  let! (t, _) := removePath (rev (path it)) (root s) false in
  let! (it', _) := seekIter t x (idir it) in
  Ok (mkAvl t (pred (count s)) (fresh s), it').

(** avltree.h:347-351 *)
Definition clear (s : avl) : avl := mkAvl Leaf 0 (fresh s).

(** avltree.h:358-365 *)
Definition isEmpty (s : avl) : bool := isNull (root s).
Definition size (s : avl) : nat := count s.

(** writing through a reference to the item at an address *)
Fixpoint modify (f : A -> A) (a : nat) (t : tree) : tree :=
  match t with
  | Leaf => Leaf
  | Node i x b l r =>
      Node i (if i =? a then f x else x) b (modify f a l) (modify f a r)
  end.

(** avltree.h:109 and 224-229: insert(AVLTree), item by item *)
Fixpoint insertAll (s : avl) (l : list A) : outcome avl :=
  match l with
  | [] => Ok s
  | x :: l' =>
      let! (s, _, _) := insert s x in
      insertAll s l'
  end.

Definition insertTree (s other : avl) : outcome avl :=
  let! l := walk (S (nodeCount (root other))) (root other) (firstIter (root other) false) in
  insertAll s l.

(** avltree.h:122-128 *)
Definition copyAvl (other : avl) : outcome avl := insertTree emptyAvl other.

(** avltree.h:130-134, another object on the right *)
Definition assign (s other : avl) : outcome avl := insertTree (clear s) other.

(** avltree.h:130-134, the object itself on the right *)
Definition assignSelf (s : avl) : outcome avl :=
  let s := clear s in insertTree s s.

(** The class AvlTreeBasic (avltreenode.h:532-604), whose nodes the caller owns.
    avltreenode.h:567-573: remove by an iterator *)
Definition basicRemove (s : avl) (it : iter) : outcome (avl * A) :=
  let! x := peek (root s) it in
  let! (t, done) := removePath (rev (path it)) (root s) false in
  Ok (mkAvl t (if done then pred (count s) else count s) (fresh s), x).

(** avltreenode.h:579-585 *)
Definition basicClear (s : avl) : avl := mkAvl Leaf (count s) (fresh s).

End Avl.

Arguments tree A : clear implicits.
Arguments avl A : clear implicits.

(** avltree.h:406-415 and 430-452: visiting all items.  The function [fn]
    returns true to stop; [S] is the state it works on. *)
Section ForEach.
Context {A S : Type}.
Variable fn : A -> S -> S * bool.

Inductive order := Forward | Backward | Up | Down.

Definition orElse (f g : S -> S * bool) (s : S) : S * bool :=
  let '(s, stop) := f s in if stop then (s, true) else g s.

Fixpoint forEach (o : order) (t : tree A) : S -> S * bool :=
  match t with
  | Leaf => fun s => (s, false)
  | Node _ x _ l r =>
      match o with
      | Forward => orElse (forEach o l) (orElse (fn x) (forEach o r))
      | Backward => orElse (forEach o r) (orElse (fn x) (forEach o l))
      | Up => orElse (forEach o l) (orElse (forEach o r) (fn x))
      | Down => orElse (fn x) (orElse (forEach o l) (forEach o r))
      end
  end.
End ForEach.
