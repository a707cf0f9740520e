(** Model of the class Map over the AVL tree:
    /repo/src/lightspeed/base/containers/map.h.  The entry is the pair of the
    key and the value; a search key is passed as an entry whose value is never
    read (map.h:152-155, reinterpret_cast), here as the function [lt] that only
    looks at the keys. *)
From Verif Require Import Common Avl_Model Map_Spec.

Section Map.
Context {K V : Type}.
Variable lt : K -> K -> bool.

(** map.h:99-106 *)
Definition ltKV (a b : K * V) : bool := lt (fst a) (fst b).

Definition map_t := avl (K * V).

(** a search entry: any value does, as [ltKV] does not look at it (map.h:152-155) *)
Variable dummy : V.
Definition key (k : K) : K * V := (k, dummy).

(** map.h:140-142 *)
Definition mapInsert (s : map_t) (k : K) (v : V) : outcome (map_t * iter * bool) :=
  insert ltKV s (k, v).

(** writing the value through the reference an iterator gives *)
Definition setValue (s : map_t) (it : iter) (v : V) : outcome map_t :=
  match path it with
  | [] => Throw
  | a :: _ =>
      let! _ := deref (root s) a in
      Ok (mkAvl (modify (fun e => (fst e, v)) a (root s)) (count s) (fresh s))
  end.

(** map.h:252-257 *)
Definition mapReplace (s : map_t) (k : K) (v : V) : outcome (map_t * iter) :=
  let! (s, it, existed) := mapInsert s k v in
  if existed then let! s := setValue s it v in Ok (s, it)
  else Ok (s, it).

(** map.h:152-155 *)
Definition mapErase (s : map_t) (k : K) : outcome (map_t * bool) :=
  erase ltKV s (key k).

(** map.h:162-172 *)
Definition mapFind (s : map_t) (k : K) : outcome (option V) :=
  let! r := find ltKV s (key k) in
  Ok (option_map snd r).

(** map.h:213-217 *)
Definition mapAt (s : map_t) (k : K) : outcome V :=
  let! r := mapFind s k in
  match r with Some v => Ok v | None => Throw end.

(** map.h:225-236: the reference returned by operator(); getNext moves the
    iterator on, the reference stays *)
Definition mapRef (s : map_t) (k : K) (v : V) : outcome (map_t * iter) :=
  let! (s, it, _) := mapInsert s k v in
  let! _ := getNext (root s) it in
  Ok (s, it).

(** map.h:183-186 *)
Definition mapSeek (s : map_t) (k : K) (d : bool) : outcome (iter * bool) :=
  seekIter ltKV (root s) (key k) d.

(** walking from an iterator to the end *)
Definition rest (s : map_t) (it : iter) : outcome (list (K * V)) :=
  walk (S (nodeCount (root s))) (root s) it.

(** one call, with the part of its result a caller can see *)
Definition mstep (o : mop K V) (s : map_t) : outcome (map_t * manswer K V) :=
  match o with
  | MInsert k v => let! (s, _, ex) := mapInsert s k v in Ok (s, AFlag ex)
  | MReplace k v =>
      let! (s, it) := mapReplace s k v in
      let! e := peek (root s) it in
      Ok (s, AValue (Some (snd e)))
  | MErase k => let! (s, b) := mapErase s k in Ok (s, AFlag b)
  | MFind k => let! r := mapFind s k in Ok (s, AValue r)
  | MAt k =>
      match mapAt s k with
      | Ok v => Ok (s, AValue (Some v))
      | Throw => Ok (s, AThrown)
      | Undef => Undef
      | NoFuel => NoFuel
      end
  | MTouch k v =>
      let! (s, it) := mapRef s k v in
      let! e := peek (root s) it in
      Ok (s, AValue (Some (snd e)))
  | MSet k v0 v =>
      let! (s, it) := mapRef s k v0 in
      let! s := setValue s it v in
      Ok (s, ANone)
  | MSize => Ok (s, ANumber (size s))
  | MEmpty => Ok (s, AFlag (isEmpty s))
  | MClear => Ok (clear s, ANone)
  | MWalk d =>
      let! l := rest s (firstIter (root s) d) in
      Ok (s, AEntries true l)
  | MSeek k d =>
      let! (it, found) := mapSeek s k d in
      let! l := rest s it in
      Ok (s, AEntries found l)
  | MEraseAt k d =>
      let! (it, _) := mapSeek s k d in
      if hasItems it then
        let! (s, it) := eraseIter ltKV s it in
        let! l := rest s it in
        Ok (s, AEntries true l)
      else Ok (s, AThrown)
  end.

Fixpoint msteps (os : list (mop K V)) (s : map_t) : outcome (map_t * list (manswer K V)) :=
  match os with
  | [] => Ok (s, [])
  | o :: os' =>
      let! (s, a) := mstep o s in
      let! (s, l) := msteps os' s in
      Ok (s, a :: l)
  end.

(** map.h:295-303: all entries of the other map *)
Definition mapPlusAssign (s other : map_t) : outcome map_t :=
  let! l := rest other (firstIter (root other) false) in
  insertAll ltKV s l.

Fixpoint eraseAll (s : map_t) (l : list (K * V)) : outcome map_t :=
  match l with
  | [] => Ok s
  | e :: l' => let! (s, _) := mapErase s (fst e) in eraseAll s l'
  end.

(** map.h:304-312 *)
Definition mapMinusAssign (s other : map_t) : outcome map_t :=
  let! l := rest other (firstIter (root other) false) in
  eraseAll s l.

(** map.h:283-285 and 356-359 *)
Definition mapPlus (a b : map_t) : outcome map_t :=
  let! s := mapPlusAssign emptyAvl a in
  mapPlusAssign s b.

(** map.h:289-291 and 352-355 *)
Definition mapMinus (a b : map_t) : outcome map_t :=
  let! s := mapMinusAssign emptyAvl a in
  mapMinusAssign s b.

(** map.h:314-328, on what the two iterators give *)
Fixpoint compareKeys (a b : list (K * V)) : comparison :=
  match a, b with
  | x :: a', y :: b' =>
      if lt (fst x) (fst y) then Lt
      else if lt (fst y) (fst x) then Gt
      else compareKeys a' b'
  | _ :: _, [] => Gt
  | [], _ :: _ => Lt
  | [], [] => Eq
  end.

Definition mapCompare (a b : map_t) : outcome comparison :=
  let! la := rest a (firstIter (root a) false) in
  let! lb := rest b (firstIter (root b) false) in
  Ok (compareKeys la lb).
End Map.
