(** Model of ClusterAlloc, AllocMulticluster and AllocCluster
    (/repo/src/lightspeed/base/memory/clusterAlloc.h, clusterAlloc.cpp).

    [sz0] is sizeof(AllocCluster).  Of the memory of a cluster the model keeps
    the first byte of each block, where the allocator stores its free list; the
    program may write to it while it owns the block.  The trees of clusters and
    of multiclusters are ordered sets (see Avl_Model.v).  Addresses and sizes
    are unbounded; the memory of the multiclusters themselves is not modelled. *)
From Coq Require Import ZArith.
From Verif Require Import Common ClusterAlloc_Spec.
Local Open Scope Z_scope.

(** allocClusterSize, clusterAlloc.cpp:10-11 *)
Definition hdr (sz0 : Z) : Z := Z.land (sz0 + 7) (Z.lnot 7).

(** AllocCluster, clusterAlloc.h:18-153; [cSize] is the block size of the
    multicluster it belongs to, [cNext] is llnext *)
Record cluster := mkC {
  cBase : Z; cSize : Z; cCount : Z; cUsed : Z; cFirst : Z; cBytes : list Z; cNext : option Z }.

(** AllocMulticluster, clusterAlloc.h:172-218: [mFree] is freeClusters *)
Record multi := mkM { mSize : Z; mNextCnt : Z; mFree : option Z }.

(** all clusters of all multiclusters; the areas (address and size) obtained from
    and given back to the allocator behind *)
Record cst := mkS {
  sClusters : list cluster; sMultis : list multi; sObtained : list (Z * Z); sReturned : list (Z * Z) }.
Definition emptyAlloc : cst := mkS [] [] [] [].
Definition setClusters (cs : list cluster) (s : cst) : cst := mkS cs (sMultis s) (sObtained s) (sReturned s).

(** objSize2bksize, clusterAlloc.cpp:34-40; 64-bit *)
Fixpoint shrink (fuel : nat) (sz fs : Z) : Z :=
  match fuel with
  | O => fs
  | S f => if sz <? fs then shrink f sz (fs / 2) else fs
  end.
Definition objSize2bksize (sz : Z) : Z :=
  let fs := (shrink 4 sz 8 - 1) mod 2^64 in
  Z.land (sz + fs) (Z.lnot fs).

(** getMemoryUsage, clusterAlloc.cpp:110-113 *)
Definition memoryUsage (sz0 count bk : Z) : Z := hdr sz0 + count * bk.

(** mapIndex, clusterAlloc.cpp:42-48 *)
Definition mapIndex (sz0 : Z) (c : cluster) (i : Z) : Z := cBase c + hdr sz0 + i * cSize c.

(** the free list the constructor builds, clusterAlloc.cpp:17-21 *)
Definition initBytes (count : Z) : list Z :=
  map (fun i => if (Z.of_nat i =? count - 1) then 255 else Z.of_nat i + 1) (seq 0 (Z.to_nat count)).
(** create, clusterAlloc.cpp:14-32 *)
Definition newCluster (a count bk : Z) : cluster := mkC a bk count 0 0 (initBytes count) None.

Definition isFull (c : cluster) : bool := cFirst c =? 255.   (* clusterAlloc.h:114 *)
Definition isEmpty (c : cluster) : bool := cUsed c =? 0.     (* clusterAlloc.h:116 *)

(** isMyPtr, clusterAlloc.cpp:74-80 *)
Definition isMyPtr (sz0 : Z) (c : cluster) (p bk : Z) : bool :=
  let zs := cBase c + hdr sz0 in (zs <=? p) && (p <? zs + cCount c * bk).

(** makeAlloc, clusterAlloc.cpp:82-90 *)
Definition makeAlloc (sz0 : Z) (c : cluster) : outcome (Z * cluster) :=
  if isFull c then Ok (0, c) else
  match nth_error (cBytes c) (Z.to_nat (cFirst c)) with
  | Some b => Ok (mapIndex sz0 c (cFirst c),
                  mkC (cBase c) (cSize c) (cCount c) ((cUsed c + 1) mod 256) b (cBytes c) (cNext c))
  | None => Undef
  end.

(** mapAddress, clusterAlloc.cpp:67-72 *)
Definition mapAddress (sz0 : Z) (c : cluster) (p bk : Z) : Z := ((p - (cBase c + hdr sz0)) / bk) mod 256.

(** a write to the first byte of a block; other addresses inside of a block are
    not modelled *)
Definition pokeBlock (sz0 : Z) (c : cluster) (p v : Z) : outcome cluster :=
  let off := p - (cBase c + hdr sz0) in
  let i := off / cSize c in
  if (0 <=? off) && (i <? cCount c) && (off mod cSize c =? 0) then
    Ok (mkC (cBase c) (cSize c) (cCount c) (cUsed c) (cFirst c) (upd (cBytes c) (Z.to_nat i) v) (cNext c))
  else Undef.

(** makeDealloc, clusterAlloc.cpp:92-100 *)
Definition makeDealloc (sz0 : Z) (c : cluster) (p bk : Z) : outcome cluster :=
  let i := mapAddress sz0 c p bk in
  let! c := pokeBlock sz0 c p (cFirst c) in
  Ok (mkC (cBase c) (cSize c) (cCount c) ((cUsed c - 1) mod 256) i (cBytes c) (cNext c)).

(** a cluster by its address: a pointer to a destroyed cluster is undefined *)
Fixpoint findC (b : Z) (l : list cluster) : option cluster :=
  match l with [] => None | c :: l' => if cBase c =? b then Some c else findC b l' end.
Definition getC (b : Z) (l : list cluster) : outcome cluster :=
  match findC b l with Some c => Ok c | None => Undef end.
Definition putC (c : cluster) (l : list cluster) : list cluster :=
  map (fun d => if cBase d =? cBase c then c else d) l.
Definition dropC (b : Z) (l : list cluster) : list cluster := filter (fun d => negb (cBase d =? b)) l.
Definition setNextC (c : cluster) (n : option Z) : cluster :=
  mkC (cBase c) (cSize c) (cCount c) (cUsed c) (cFirst c) (cBytes c) n.

(** checkEmpty, clusterAlloc.cpp:196-205, with destroy, :102-108 *)
Fixpoint checkEmpty (fuel : nat) (sz0 b : Z) (s : cst) : outcome cst :=
  let! k := getC b (sClusters s) in
  match cNext k with
  | None => Ok s
  | Some n =>
      if isEmpty k then
        let! l := getC n (sClusters s) in
        if isEmpty l then
          match fuel with
          | O => NoFuel
          | S f =>
              let cs := putC (setNextC k (cNext l)) (sClusters s) in
              checkEmpty f sz0 b
                (mkS (dropC n cs) (sMultis s) (sObtained s)
                     (sReturned s ++ [(n, memoryUsage sz0 (cCount l) (cSize k))]))
          end
        else Ok s
      else Ok s
  end.

Fixpoint findM (bk : Z) (l : list multi) : option multi :=
  match l with [] => None | m :: l' => if mSize m =? bk then Some m else findM bk l' end.
Definition putM (m : multi) (l : list multi) : list multi :=
  map (fun d => if mSize d =? mSize m then m else d) l.
Definition setFree (bk : Z) (f : option Z) (s : cst) : outcome cst :=
  match findM bk (sMultis s) with
  | Some m => Ok (mkS (sClusters s) (putM (mkM bk (mNextCnt m) f) (sMultis s)) (sObtained s) (sReturned s))
  | None => Undef
  end.

(** onDealloc, clusterAlloc.cpp:187-194 *)
Definition onDealloc (sz0 b bk : Z) (wasFull : bool) (s : cst) : outcome cst :=
  let! s :=
    if wasFull then
      match findM bk (sMultis s) with
      | Some m =>
          let! c := getC b (sClusters s) in
          setFree bk (Some b) (setClusters (putC (setNextC c (mFree m)) (sClusters s)) s)
      | None => Undef
      end
    else Ok s in
  checkEmpty (length (sClusters s)) sz0 b s.

(** AllocMulticluster::alloc, clusterAlloc.cpp:130-146; [a] is the memory the
    allocator behind gives *)
Definition multiAlloc (sz0 a : Z) (m : multi) (s : cst) : outcome (Z * Z * cst) :=
  let bk := mSize m in
  let! (b, s) :=
    match mFree m with
    | Some b => Ok (b, s)
    | None =>
        let k := newCluster a (mNextCnt m) bk in
        let cnt := if mNextCnt m <? 255 then mNextCnt m + 1 else mNextCnt m in
        Ok (a, mkS (k :: sClusters s) (putM (mkM bk cnt (Some a)) (sMultis s))
                 (sObtained s ++ [(a, memoryUsage sz0 (mNextCnt m) bk)]) (sReturned s))
    end in
  let! c := getC b (sClusters s) in
  let! (p, c) := makeAlloc sz0 c in
  let s := setClusters (putC c (sClusters s)) s in
  let! s := checkEmpty (length (sClusters s)) sz0 b s in
  let! c := getC b (sClusters s) in
  let! s := if isFull c then setFree bk (cNext c) s else Ok s in
  Ok (p, b, s).

(** the first count of a multicluster, clusterAlloc.h:179-183 *)
Definition firstCnt (sz0 bk : Z) : Z := (1 + (sz0 + bk / 2) / bk) mod 256.

(** ClusterAlloc::alloc, clusterAlloc.cpp:249-260; a block size of zero is a
    division by zero *)
Definition clusterAlloc (sz0 sz a : Z) (s : cst) : outcome (Z * Z * cst) :=
  let bk := objSize2bksize sz in
  match findM bk (sMultis s) with
  | Some m => multiAlloc sz0 a m s
  | None =>
      if bk =? 0 then Undef else
      let m := mkM bk (firstCnt sz0 bk) None in
      multiAlloc sz0 a m (mkS (sClusters s) (m :: sMultis s) (sObtained s) (sReturned s))
  end.

(** the last cluster of a multicluster not behind [p]: seek backward in the tree
    ordered by address, clusterAlloc.cpp:167-171 *)
Fixpoint seekBack (bk p : Z) (l : list cluster) : option cluster :=
  match l with
  | [] => None
  | c :: l' =>
      let r := seekBack bk p l' in
      if (cSize c =? bk) && (cBase c <=? p) then
        match r with
        | Some d => if cBase d <? cBase c then Some c else Some d
        | None => Some c
        end
      else r
  end.

(** AllocMulticluster::dealloc, clusterAlloc.cpp:160-178 *)
Definition multiDealloc (sz0 : Z) (m : multi) (p : Z) (s : cst) : outcome cst :=
  let bk := mSize m in
  let! head :=
    match mFree m with
    | Some b => let! c := getC b (sClusters s) in Ok (if isMyPtr sz0 c p bk then Some c else None)
    | None => Ok None
    end in
  match head with
  | Some c =>
      let! c := makeDealloc sz0 c p bk in
      onDealloc sz0 (cBase c) bk false (setClusters (putC c (sClusters s)) s)
  | None =>
      match seekBack bk p (sClusters s) with
      | None => Ok s
      | Some c =>
          if isMyPtr sz0 c p bk then
            let wasFull := isFull c in
            let! c := makeDealloc sz0 c p bk in
            onDealloc sz0 (cBase c) bk wasFull (setClusters (putC c (sClusters s)) s)
          else Throw
      end
  end.

(** ClusterAlloc::dealloc, clusterAlloc.cpp:268-277 *)
Definition clusterDealloc (sz0 p sz : Z) (s : cst) : outcome cst :=
  match findM (objSize2bksize sz) (sMultis s) with
  | None => Throw
  | Some m => multiDealloc sz0 m p s
  end.

(** AllocCluster::dealloc, clusterAlloc.cpp:57-65: note the size given to
    makeDealloc *)
Definition ownerDealloc (sz0 o p sz : Z) (s : cst) : outcome cst :=
  let! c := getC o (sClusters s) in
  let bk := objSize2bksize sz in
  if negb (isMyPtr sz0 c p bk) then Throw else
  let wasFull := isFull c in
  if sz =? 0 then Undef else
  let! c := makeDealloc sz0 c p sz in
  let s := setClusters (putC c (sClusters s)) s in
  if wasFull || isEmpty c then onDealloc sz0 o (cSize c) wasFull s else Ok s.

(** the program writes to the first byte of a block *)
Fixpoint clusterOf (sz0 p : Z) (l : list cluster) : option cluster :=
  match l with
  | [] => None
  | c :: l' => if isMyPtr sz0 c p (cSize c) then Some c else clusterOf sz0 p l'
  end.
Definition write (sz0 p v : Z) (s : cst) : outcome cst :=
  match clusterOf sz0 p (sClusters s) with
  | Some c => let! c := pokeBlock sz0 c p v in Ok (setClusters (putC c (sClusters s)) s)
  | None => Undef
  end.

(** the indexes the loop of reportLeaks visits, clusterAlloc.cpp:117-124 *)
Fixpoint freeIdx (fuel : nat) (bytes : list Z) (seen : list Z) (z : Z) : outcome (list Z) :=
  if z =? 255 then Ok seen else
  if existsb (Z.eqb z) seen then Ok seen else
  match nth_error bytes (Z.to_nat z) with
  | None => Undef
  | Some y => match fuel with O => NoFuel | S f => freeIdx f bytes (z :: seen) y end
  end.
(** reportLeaks of a cluster, clusterAlloc.cpp:115-128 *)
Definition leaksC (sz0 : Z) (c : cluster) : outcome (list Z) :=
  let! fr := freeIdx (Z.to_nat (cCount c)) (cBytes c) [] (cFirst c) in
  Ok (map (mapIndex sz0 c)
       (filter (fun i => negb (existsb (Z.eqb i) fr)) (map Z.of_nat (seq 0 (Z.to_nat (cCount c)))))).
Fixpoint leaksAll (sz0 : Z) (l : list cluster) : outcome (list Z) :=
  match l with
  | [] => Ok []
  | c :: l' => let! a := leaksC sz0 c in let! b := leaksAll sz0 l' in Ok (a ++ b)
  end.

(** ClusterAlloc::clear, clusterAlloc.cpp:309-325, without an exception in
    flight; the answer holds the leaks of the exception it throws (an empty list:
    nothing is thrown).  ~AllocMulticluster: clusterAlloc.cpp:229-234. *)
Definition clear (sz0 : Z) (s : cst) : outcome (list Z * cst) :=
  let! l := leaksAll sz0 (sClusters s) in
  Ok (l, mkS [] [] (sObtained s) (sReturned s ++ map (fun c => (cBase c, memoryUsage sz0 (cCount c) (cSize c))) (sClusters s))).

Definition castep (sz0 : Z) (op : cop) (s : cst) : outcome (cst * cans) :=
  match op with
  | CAlloc sz a => let! (p, o, s) := clusterAlloc sz0 sz a s in Ok (s, ABlock p o)
  | CFree p sz => let! s := clusterDealloc sz0 p sz s in Ok (s, ADone)
  | CFreeVia o p sz => let! s := ownerDealloc sz0 o p sz s in Ok (s, ADone)
  | CWrite p v => let! s := write sz0 p v s in Ok (s, ADone)
  | CClear => let! (l, s) := clear sz0 s in Ok (s, ALeaks l)
  end.

(** the blocks in use after a run, from the operations and the answers *)
Fixpoint carun (sz0 : Z) (ops : list cop) (s : cst) (live : list block) : outcome (cst * list cans * list block) :=
  match ops with
  | [] => Ok (s, [], live)
  | op :: ops' =>
      let! (s, a) := castep sz0 op s in
      let! (s, l, live) := carun sz0 ops' s (liveAfter op a live) in
      Ok (s, a :: l, live)
  end.

(** the memory the allocator holds *)
Definition areas (sz0 : Z) (s : cst) : list (Z * Z) :=
  map (fun c => (cBase c, memoryUsage sz0 (cCount c) (cSize c))) (sClusters s).
(** how much memory [CAlloc sz] asks the allocator behind for, at most *)
Definition wants (sz0 sz : Z) (s : cst) : Z :=
  let bk := objSize2bksize sz in
  memoryUsage sz0 (match findM bk (sMultis s) with Some m => mNextCnt m | None => firstCnt sz0 bk end) bk.

(** Histories: every operation is allowed by the specification, and [CAlloc sz a]
    gets memory at [a] that the allocator does not hold already. *)
Fixpoint legal (sz0 : Z) (ops : list cop) (s : cst) (live : list block) : Prop :=
  match ops with
  | [] => True
  | op :: ops' =>
      callowed op live /\
      match op with
      | CAlloc sz a => forall b n, In (b, n) (areas sz0 s) -> apart a (wants sz0 sz s) b n
      | _ => True
      end /\
      forall s' a, castep sz0 op s = Ok (s', a) -> legal sz0 ops' s' (liveAfter op a live)
  end.
(** blocks given back through their owner have a size that needs no rounding *)
Definition exact (op : cop) : Prop :=
  match op with CFreeVia _ _ sz => objSize2bksize sz = sz | _ => True end.
