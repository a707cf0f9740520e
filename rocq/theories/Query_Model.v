(** Model of the filters UrlEncoder and UrlDecoder (src/lightspeed/utils/urlencode.h), of the
    filtering iterators (src/lightspeed/base/iter/iteratorFilter.h, iteratorFilter.tcc) and of
    QueryParser (src/lightspeed/utils/queryParser.h, queryParser.cpp).  A char is its byte. *)
From Coq Require Import ZArith.
From Verif Require Import Common Query_Spec.
Import ListNotations.
Local Open Scope Z_scope.

(** iteratorFilter.h:40-153: what a filter offers; flush() of all filters here does nothing *)
Record filter (S : Type) := mkFilter {
  fNeed : S -> bool; fHas : S -> bool; fInput : Z -> S -> S; fOutput : S -> outcome (S * Z) }.
Arguments fNeed {S}. Arguments fHas {S}. Arguments fInput {S}. Arguments fOutput {S}.

(** urlencode.h:79-113: UrlEncoder; the state is buff[pt-1], ..., buff[0] *)
Definition hexOf (z : Z) : Z := if 10 <=? z then z + 65 - 10 else z + 48.
Definition encInput (x : Z) (s : list Z) : list Z :=
  if ((65 <=? x) && (x <=? 90)) || ((97 <=? x) && (x <=? 122)) || ((48 <=? x) && (x <=? 57)) || (x =? 95) || (x =? 45) then [x]
  else [37; hexOf (Z.shiftr x 4); hexOf (Z.land x 15)].
Definition encOutput (s : list Z) : outcome (list Z * Z) := match s with [] => Throw | c :: s => Ok (s, c) end.
Definition encoder : filter (list Z) :=
  mkFilter _ (fun s => match s with [] => true | _ => false end) (fun s => match s with [] => false | _ => true end) encInput encOutput.

(** urlencode.h:114-145: UrlDecoder; a character that was never stored is None *)
Record dec := mkDec { pt : nat; b0 : option Z; b1 : option Z; b2 : option Z }.
Definition newDec : dec := mkDec 0 None None None.
Definition isPercent (c : option Z) : bool := match c with Some c => c =? 37 | None => false end.
(** urlencode.h:117-119 *)
Definition decNeed (d : dec) : bool := (pt d =? 0)%nat || ((pt d <? 3)%nat && isPercent (b0 d)).
(** urlencode.h:121-124; a fourth character is never stored *)
Definition decInput (x : Z) (d : dec) : dec :=
  if (pt d =? 0)%nat then mkDec 1 (Some x) (b1 d) (b2 d)
  else if (pt d =? 1)%nat then mkDec 2 (b0 d) (Some x) (b2 d)
  else mkDec (S (pt d)) (b0 d) (b1 d) (Some x).
(** urlencode.h:126-128 *)
Definition decHas (d : dec) : bool := (pt d =? 1)%nat || ((pt d =? 3)%nat && isPercent (b0 d)).
Definition unhex (c : Z) : Z := if 97 <=? c then c - 97 + 10 else if 65 <=? c then c - 65 + 10 else c - 48.
(** urlencode.h:130-142 *)
Definition decOutput (d : dec) : outcome (dec * Z) :=
  let d' := mkDec 0 (b0 d) (b1 d) (b2 d) in
  match b0 d with
  | None => Undef
  | Some c =>
      if c =? 37 then
        match b1 d, b2 d with
        | Some x, Some y => Ok (d', (unhex x * 16 + unhex y) mod 256)
        | _, _ => Undef
        end
      else if c =? 43 then Ok (d', 32)
      else Ok (d', c)
  end.
Definition decoder : filter dec := mkFilter _ decNeed decHas decInput decOutput.

Section Filter.
  Context {S : Type} (F : filter S).
  (** ** FilterRead: [src] is what the source still has; [got] is fetched = 1 with the buffer *)
  Record rd := mkRd { src : list Z; flt : S; got : option Z }.
  (** iteratorFilter.tcc:48-51 *)
  Definition rHas (r : rd) : bool :=
    match got r with Some _ => true | None => fHas F (flt r) || (match src r with [] => false | _ => true end && fNeed F (flt r)) end.
  (** iteratorFilter.h:182-201: blockFetch *)
  Fixpoint blockFetch (l : list Z) (s : S) : list Z * S :=
    match l with
    | [] => ([], s)
    | x :: l' => if fNeed F s then blockFetch l' (fInput F x s) else (l, s)
    end.
  (** iteratorFilter.tcc:66-81: getBuffer *)
  Definition getBuffer (r : rd) : outcome (rd * Z) :=
    match got r with
    | Some c => Ok (r, c)
    | None =>
        let (l, s) := if fHas F (flt r) then (src r, flt r) else blockFetch (src r) (flt r) in
        if fHas F s then let! (s, c) := fOutput F s in Ok (mkRd l s (Some c), c) else Throw
    end.
  (** iteratorFilter.tcc:53-64: peek and getNext *)
  Definition rPeek (r : rd) : outcome (rd * Z) := getBuffer r.
  Definition rNext (r : rd) : outcome (rd * Z) :=
    let! (r, c) := getBuffer r in Ok (mkRd (src r) (flt r) None, c).
  (** iter/iterator.h:531-539: copy to a target that is never full *)
  Fixpoint copyAll (fuel : nat) (r : rd) (out : list Z) : outcome (list Z) :=
    if rHas r then
      match fuel with
      | O => NoFuel
      | Datatypes.S f => let! (r, c) := rNext r in copyAll f r (out ++ [c])
      end
    else Ok out.
  (** iteratorFilter.h:228-234: blockOutput, at least one item, at most [k] more *)
  Fixpoint blockOutput (k : nat) (s : S) (out : list Z) : outcome (S * list Z) :=
    let! (s, c) := fOutput F s in
    match k with
    | O => Ok (s, out ++ [c])
    | Datatypes.S k => if fHas F s then blockOutput k s (out ++ [c]) else Ok (s, out ++ [c])
    end.
  (** iteratorFilter.tcc:143-150: the loop of blockRead; [out] is the part of the buffer before pos *)
  Fixpoint blockLoop (fuel : nat) (readAll : bool) (len : nat) (l : list Z) (s : S) (out : list Z) : outcome (rd * list Z) :=
    match fuel with
    | O => NoFuel
    | Datatypes.S f =>
        let (l, s) := if fHas F s then (l, s) else blockFetch l s in
        let! (s, out) := blockOutput (len - length out - 1) s out in
        if negb readAll && (length out <? len)%nat then blockLoop f readAll len l s out else Ok (mkRd l s None, out)
    end.
  (** iteratorFilter.tcc:134-152: blockRead; [buf] is the buffer before the call.  An item that
      waits in the iterator is stored at index 1 or 2: getNext changes the index, and the order
      of both is not fixed.  Then the loop goes on at index 1. *)
  Definition blockRead (fuel : nat) (readAll : bool) (buf : list Z) (r : rd) : outcome (rd * list Z) :=
    match buf, got r with
    | [], _ => Ok (r, [])
    | _, None => blockLoop fuel readAll (length buf) (src r) (flt r) []
    | [_], Some _ | [_; _], Some _ => Undef
    | x :: _, Some _ => blockLoop fuel readAll (length buf) (src r) (flt r) [x]
    end.
  Definition rStep (o : qop) (r : rd) : outcome (rd * qanswer Z) :=
    match o with
    | HasItems => Ok (r, Yes (rHas r))
    | GetNext => let! (r, c) := rNext r in Ok (r, Item c)
    | Peek => let! (r, c) := rPeek r in Ok (r, Item c)
    end.
  Fixpoint rSteps (os : list qop) (r : rd) : outcome (list (qanswer Z) * rd) :=
    match os with
    | [] => Ok ([], r)
    | o :: os => let! (r, a) := rStep o r in let! (l, r) := rSteps os r in Ok (a :: l, r)
    end.

  (** ** FilterWrite, into a target that is never full *)
  (** iteratorFilter.h:203-211: blockFeed *)
  Fixpoint blockFeed (fuel : nat) (s : S) (out : list Z) : outcome (S * list Z) :=
    if fHas F s then
      match fuel with
      | O => NoFuel
      | Datatypes.S f => let! (s, c) := fOutput F s in blockFeed f s (out ++ [c])
      end
    else Ok (s, out).
  (** iteratorFilter.tcc:16-32: write *)
  Definition wWrite (fuel : nat) (x : Z) (w : S * list Z) : outcome (S * list Z) :=
    let! (s, out) := (if fNeed F (fst w) then Ok w else blockFeed fuel (fst w) (snd w)) in
    let s := fInput F x s in
    if fNeed F s then Ok (s, out) else blockFeed fuel s out.
  Fixpoint wWrites (fuel : nat) (xs : list Z) (w : S * list Z) : outcome (S * list Z) :=
    match xs with [] => Ok w | x :: xs => let! w := wWrite fuel x w in wWrites fuel xs w end.
  (** iteratorFilter.tcc:102-113, 127-132: flush and the destructor *)
  Definition wFlush (fuel : nat) (w : S * list Z) : outcome (S * list Z) := blockFeed fuel (fst w) (snd w).
End Filter.
Arguments mkRd {S}. Arguments src {S}. Arguments flt {S}. Arguments got {S}.

(** ** QueryParser *)
Fixpoint findc (c : Z) (t : list Z) : option nat :=
  match t with [] => None | x :: t => if x =? c then Some O else match findc c t with Some n => Some (S n) | None => None end end.
(** arrayt.h:609-638: the iterator of split; None is a position behind the end *)
Definition splitNext (c : Z) (t : list Z) : list Z * option (list Z) :=
  match findc c t with None => (t, None) | Some n => (firstn n t, Some (skipn (n + 1) t)) end.
Definition pair := (list Z * list Z)%type.
(** queryParser.h:37-43 *)
Record qp := mkQp { qpath : list Z; query : list Z; iter : option (list Z); slot0 : pair; slot1 : pair; swp : bool; more : bool }.
Definition slot (i : bool) (q : qp) : pair := if i then slot1 q else slot0 q.
Definition setSlot (i : bool) (x : pair) (q : qp) : qp :=
  if i then mkQp (qpath q) (query q) (iter q) (slot0 q) x true true
  else mkQp (qpath q) (query q) (iter q) x (slot1 q) false true.
(** queryParser.cpp:76-78: the value is read through the decoder *)
Definition decode (t : list Z) : outcome (list Z) := copyAll decoder (S (length t)) (mkRd t newDec None) [].
(** queryParser.cpp:56-84: preload; the fuel bounds the recursion *)
Fixpoint preload (fuel : nat) (q : qp) : outcome qp :=
  match fuel with
  | O => NoFuel
  | S f =>
      let ld := negb (swp q) in
      match iter q with
      | None => Ok (mkQp (qpath q) (query q) None (slot0 q) (slot1 q) (swp q) false)
      | Some t =>
          let (itm, rest) := splitNext 38 t in
          let q := mkQp (qpath q) (query q) rest (slot0 q) (slot1 q) (swp q) (more q) in
          let! (q, fv) :=
            match findc 61 itm with
            | None => match itm with [] => let! q := preload f q in Ok (q, ([], [])) | _ => Ok (q, (itm, [49])) end
            | Some n => Ok (q, (firstn n itm, skipn (n + 1) itm))
            end in
          let! v := decode (snd fv) in
          Ok (setSlot ld (fst fv, v) q)
      end
  end.
(** queryParser.cpp:19-31: the constructor *)
Definition newQp (vpath : list Z) : outcome qp :=
  let p := match findc 63 vpath with None => vpath | Some n => firstn n vpath end in
  let qu := skipn (length p + 1) vpath in
  preload (S (S (length qu))) (mkQp p qu (Some qu) ([], []) ([], []) false false).
(** queryParser.cpp:37-54; the result of getNext is a reference, so it is read after the preload *)
Definition qNext (q : qp) : outcome (qp * pair) :=
  let i := swp q in
  let! q := preload (S (S (length (query q)))) q in Ok (q, slot i q).
Definition qPeek (q : qp) : pair := slot (swp q) q.
Definition qStep (o : qop) (q : qp) : outcome (qp * qanswer pair) :=
  match o with
  | HasItems => Ok (q, Yes (more q))
  | GetNext => let! (q, x) := qNext q in Ok (q, Item x)
  | Peek => Ok (q, Item (qPeek q))
  end.
Fixpoint qSteps (os : list qop) (q : qp) : outcome (list (qanswer pair) * qp) :=
  match os with
  | [] => Ok ([], q)
  | o :: os => let! (q, a) := qStep o q in let! (l, q) := qSteps os q in Ok (a :: l, q)
  end.
