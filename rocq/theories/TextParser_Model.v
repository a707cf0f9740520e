(** Model of TextParser, src/lightspeed/base/text/textParser.{h,tcc}, with DefaultCompare
    and without a custom parser.  Characters are integers, pattern and source are the texts
    that remain to be read; [getNext], [peek] and [skip] at the end of a text throw
    (containers/arrayt.h:95-109).  Counts are natural numbers without wrap-around,
    [naturalNull] as an upper limit is [None]. *)
From Coq Require Import ZArith.
From Verif Require Import Common.
Local Open Scope Z_scope.

(** textParser.h:430-435: extracted characters, fragments (begin and length) within them,
    and the texts for new line and white space *)
Record tp := mkTp { data : list Z; frags : list (nat * nat) }.
Definition setData (st : tp) (d : list Z) : tp := mkTp d (frags st).
Definition addData (st : tp) (c : Z) : tp := setData st (data st ++ [c]).
(** data.erase(n,data.length() - n); containers/autoArray.tcc:168-178 *)
Definition eraseFrom (st : tp) (n : nat) : outcome tp :=
  if (length (data st) <? n)%nat then Throw else Ok (setData st (firstn n (data st))).

(** textParser.h:440-446 *)
Record step := mkStep { dataBeg : nat; rmin : nat; rmax : option nat; defAst : bool }.
Definition newStep (st : tp) : step := mkStep (length (data st)) 1 None true.
Definition noAst (ss : step) : step := mkStep (dataBeg ss) (rmin ss) (rmax ss) false.
(** [n < max], [n >= max] *)
Definition under (n : nat) (max : option nat) : bool := match max with Some m => (n <? m)%nat | None => true end.
Definition dec (max : option nat) : option nat := option_map pred max.

(** a text without its first characters that are in a set, and whether there was one *)
Fixpoint skipSet (inSet : Z -> bool) (src : list Z) : bool * list Z :=
  match src with
  | c :: t => if inSet c then (true, snd (skipSet inSet t)) else (false, src)
  | [] => (false, [])
  end.
(** textParser.tcc:26-30 *)
Definition isWS (c : Z) : bool :=
  (c =? 32) || (c =? 9) || (c =? 10) || (c =? 13) || (c =? 8) || (c =? 7).
Definition isBlank (c : Z) : bool := (c =? 32) || (c =? 9).
(** textParser.tcc:97-106: the set of setWS, blanks if it is empty *)
Definition inWs (ws : list Z) (c : Z) : bool :=
  match ws with [] => isBlank c | _ => existsb (Z.eqb c) ws end.
(** textParser.tcc:92-95 *)
Fixpoint matchNl (nl src : list Z) : bool * list Z :=
  match nl with
  | [] => (true, src)
  | c :: nl' => match src with [] => (false, []) | d :: s => if c =? d then matchNl nl' s else (false, s) end
  end.

(** textParser.tcc:65: characters that stand for themselves after a percent sign *)
Definition escaped (n : Z) : bool :=
  (n =? 37) || (n =? 95) || (n =? 32) || (n =? 10) || (n =? 9) || (n =? 8).
Definition isDigit (c : Z) : bool := (48 <=? c) && (c <=? 57).

(** textParser.tcc:381-423: count, new range and the rest of the pattern; [second] is the
    flag bfeed == &num2 *)
Fixpoint rangeLoop (pat : list Z) (cnt : nat) (second : bool) (n1 n2 : bool) (r1 : nat) (r2 : option nat)
  : outcome (nat * (bool * nat) * (bool * option nat) * list Z) :=
  let done cnt pat := Ok (cnt, (n1, r1), (n2, r2), pat) in
  match pat with
  | [] => done cnt []
  | k :: pat =>
      let cnt := S cnt in
      if k =? 44 then rangeLoop pat cnt true n1 n2 r1 r2
      else if isDigit k then
        let dig := Z.to_nat (k - 48) in
        if second then rangeLoop pat cnt second n1 true r1 (option_map (fun r => r * 10 + dig)%nat r2)
        else rangeLoop pat cnt second true n2 (r1 * 10 + dig) r2
      else if k =? 41 then done cnt pat
      else if (k =? 42) && second then rangeLoop pat cnt second n1 true r1 None
      else if negb second && (r1 =? 0)%nat then
        match pat with
        | [] => Throw
        | 41 :: pat' =>
            let '(r1, r2) := (if k =? 42 then (0%nat, None) else if k =? 43 then (1%nat, None)
                              else if k =? 63 then (0%nat, Some 1%nat)
                              else if k =? 46 then (1%nat, Some 1%nat) else (r1, r2)) in
            Ok (S cnt, (true, r1), (true, r2), pat')
        | _ => rangeLoop pat cnt second n1 n2 r1 r2
        end
      else rangeLoop pat cnt second n1 n2 r1 r2
  end.
Definition parseRange (pat : list Z) (ss : step) : outcome (bool * step * list Z) :=
  let! (cnt, first, last, pat) := rangeLoop pat 0 false false false 0 (Some 0%nat) in
  let ss := if fst first : bool then mkStep (dataBeg ss) (snd first) (rmax ss) (defAst ss) else ss in
  let ss := if fst last : bool then mkStep (dataBeg ss) (rmin ss) (snd last) (defAst ss) else ss in
  Ok (negb (cnt =? 0)%nat, ss, pat).

(** textParser.tcc:704-714 *)
Definition checkNumber (x base : Z) : bool :=
  if 10 <? base then
    ((48 <=? x) && (x <=? 57)) || ((65 <=? x) && (x <? 65 + (base - 10))) || ((97 <=? x) && (x <? 97 + (base - 10)))
  else (48 <=? x) && (x <? 48 + base).
(** textParser.tcc:733-737; also the loop of parseIdentifier, 781-790: the characters and
    the rest of the source *)
Fixpoint takeWhileMax (ok : Z -> bool) (max : option nat) (src : list Z) : list Z * list Z :=
  match src with
  | c :: t => if under 0 max && ok c then let (a, r) := takeWhileMax ok (dec max) t in (c :: a, r) else ([], src)
  | [] => ([], [])
  end.
Definition appData (st : tp) (t : list Z) : tp := setData st (data st ++ t).
Definition isSign (c : Z) : bool := (c =? 43) || (c =? 45).
(** textParser.tcc:718-740: success, the remaining maximum, source and state *)
Definition parseNumber (src : list Z) (max : option nat) (neg : bool) (base : Z) (st : tp)
  : bool * option nat * list Z * tp :=
  if negb (under 0 max) then (false, max, src, st)
  else match src with
  | [] => (false, max, src, st)
  | c :: t =>
      if isSign c && negb neg then (false, max, src, st)
      else
        let '(max, src, st) := if isSign c then (dec max, t, addData st c) else (max, src, st) in
        if negb (under 0 max) then (false, max, src, st)
        else match src with
        | [] => (false, max, src, st)
        | d :: t =>
            if checkNumber d base then
              let (a, r) := takeWhileMax (fun x => checkNumber x base) (dec max) t in
              (true, option_map (fun m => (m - 1 - length a)%nat) max, r, appData (addData st d) a)
            else (false, max, src, st)
        end
  end.
(** textParser.tcc:744-769 *)
Definition parseExp (k : Z) (src : list Z) (max : option nat) (st : tp) : bool * list Z * tp :=
  if (k =? 101) || (k =? 69) then
    let st := addData st k in let src := tl src in let max := dec max in
    if negb (under 0 max) || match src with [] => true | _ => false end then (false, src, st)
    else let '(ok, _, src, st) := parseNumber src max true 10 st in (ok, src, st)
  else (true, src, st).
Definition parseFloat (src : list Z) (max : option nat) (st : tp) : bool * list Z * tp :=
  let '(ok, max, src, st) := parseNumber src max true 10 st in
  if negb ok then (false, src, st)
  else if negb (under 0 max) then (true, src, st)
  else match src with
  | [] => (true, src, st)
  | k :: t =>
      if k =? 46 then
        let st := addData st k in let max := dec max in
        if negb (under 0 max) || match t with [] => true | _ => false end then (false, t, st)
        else let '(ok, max, src, st) := parseNumber t max false 10 st in
             if negb ok then (false, src, st)
             else if negb (under 0 max) then (true, src, st)
             else match src with [] => (true, src, st) | k :: _ => parseExp k src max st end
      else parseExp k src max st
  end.
(** textParser.tcc:774-795 *)
Definition isAlpha (k : Z) : bool := (k =? 95) || ((97 <=? k) && (k <=? 122)) || ((65 <=? k) && (k <=? 90)).
Definition parseIdentifier (src : list Z) (max : option nat) (st : tp) : bool * list Z * tp :=
  match src with
  | k :: t =>
      if under 0 max && isAlpha k then
        let (a, r) := takeWhileMax (fun c => isAlpha c || isDigit c) (dec max) t in
        (true, r, appData (addData st k) a)
      else (false, src, st)
  | [] => (false, src, st)
  end.

(** textParser.tcc:297-312: the loop of parseQuoted *)
Fixpoint quotedLoop (q esc : Z) (src : list Z) (st : tp) : outcome (list Z * tp) :=
  match src with
  | [] => Ok ([], st)
  | a :: t =>
      if a =? esc then
        match t with
        | b :: t' =>
            if b =? q then quotedLoop q esc t' (addData st b)
            else if q =? esc then Ok (t, st)
            else quotedLoop q esc t' (addData st b)
        | [] => if q =? esc then Ok ([], st) else Throw
        end
      else if a =? q then Ok (t, st)
      else quotedLoop q esc t (addData st a)
  end.

(** textParser.tcc:344-364: is [p] in the list; the flag [cond] takes part *)
Fixpoint inList (fuel : nat) (cond : bool) (p : Z) (list_ : list Z) : bool :=
  match fuel, list_ with
  | S f, a :: r =>
      match r with
      | m :: r' =>
          if m =? 45 then
            match r' with
            | b :: r'' => if (a <=? p) && Bool.eqb (p <=? b) cond then true else inList f cond p r''
            | [] => Bool.eqb ((p =? a) || (p =? m)) cond
            end
          else if p =? a then true else inList f cond p r
      | [] => p =? a
      end
  | _, _ => false
  end.
(** textParser.tcc:322-332: asterisk, cond, list and the rest of the pattern *)
Definition charListHead (pat : list Z) : outcome (option (bool * bool * list Z * list Z)) :=
  match pat with
  | [] => Ok None
  | c :: pat =>
      let! (ast, c, pat) := (if c =? 42 then match pat with c :: pat => Ok (true, c, pat) | [] => Throw end
                             else Ok (false, c, pat)) in
      let! (cond, c, pat) := (if c =? 94 then match pat with c :: pat => Ok (false, c, pat) | [] => Throw end
                              else Ok (true, c, pat)) in
      let! (c, pat) := (if c =? 92 then match pat with c :: pat => Ok (c, pat) | [] => Throw end else Ok (c, pat)) in
      let (more, rest) := takeWhileMax (fun x => negb (x =? 93)) None pat in
      Ok (Some (ast, cond, c :: more, tl rest))
  end.

(** ** Skipping a branch, textParser.tcc:141-192 and 603-626 *)
(** textParser.tcc:142-153 *)
Fixpoint skipListLoop (fuel : nat) (pat : list Z) : outcome (list Z) :=
  match fuel with
  | O => NoFuel
  | S f =>
      match pat with
      | [] => Ok []
      | x :: pat =>
          if x =? 93 then Ok pat
          else match pat with
               | [] => Throw
               | y :: r => if y =? 45 then match r with _ :: r => skipListLoop f r | [] => Throw end
                           else skipListLoop f pat
               end
      end
  end.
Fixpoint skipCharlist (fuel : nat) (pat : list Z) : outcome (list Z) :=
  match fuel with
  | O => NoFuel
  | S f =>
      match pat with
      | [] => Throw
      | x :: pat => if (x =? 42) || (x =? 94) || (x =? 93) then skipCharlist f pat else skipListLoop f pat
      end
  end.
(** textParser.tcc:155-160 *)
Fixpoint skipRange (pat : list Z) : list Z :=
  match pat with [] => [] | x :: r => if x =? 41 then r else skipRange r end.
(** textParser.tcc:180-188: the loop does not advance over a digit *)
Fixpoint skipDigits (fuel : nat) (pat : list Z) : outcome (bool * list Z) :=
  match fuel with
  | O => NoFuel
  | S f =>
      match pat with
      | [] => Ok (false, [])
      | p :: r => if p =? 37 then Ok (true, r) else if isDigit p then skipDigits f pat else Ok (true, pat)
      end
  end.
(** textParser.tcc:161-192 *)
Fixpoint skipPattern (fuel : nat) (pat : list Z) : outcome (list Z) :=
  match fuel with
  | O => NoFuel
  | S f =>
      match pat with
      | [] => Ok []
      | p :: r =>
          if p =? 91 then let! r := skipCharlist f r in skipPattern f r
          else if p =? 40 then skipPattern f (skipRange r)
          else if (p =? 39) || (p =? 113) then match r with _ :: _ :: r => skipPattern f r | _ => Throw end
          else if p =? 37 then Ok r
          else if isDigit p then
            let! (stop, r) := skipDigits f r in if stop : bool then Ok r else skipPattern f r
          else skipPattern f r
      end
  end.
(** textParser.tcc:604-626 *)
Fixpoint skipToNextBranch (fuel : nat) (pat : list Z) : outcome (bool * list Z) :=
  match fuel with
  | O => NoFuel
  | S f =>
      match pat with
      | [] => Ok (false, [])
      | 37 :: d :: r =>
          if d =? 37 then skipToNextBranch f r
          else if d =? 124 then Ok (true, r)
          else if d =? 62 then Ok (false, r)
          else if d =? 60 then
            let! p := skipAllBranches f (d :: r) in skipToNextBranch f p
          else let! r := skipPattern f (d :: r) in skipToNextBranch f r
      | _ :: r => skipToNextBranch f r
      end
  end
(** textParser.tcc:618-619 and 645 *)
with skipAllBranches (fuel : nat) (pat : list Z) : outcome (list Z) :=
  match fuel with
  | O => NoFuel
  | S f => let! (x, p) := skipToNextBranch f pat in if x : bool then skipAllBranches f p else Ok p
  end.

Section Parser.
  Variables (nl ws : list Z).

  (** field number of textParser.tcc:238-244 and the rest *)
  Definition fragId (ds : list Z) : nat := fold_left (fun a c => a * 10 + Z.to_nat (c - 48))%nat ds 0%nat.
  (** textParser.tcc:248-249 *)
  Definition setFrag (st : tp) (id : nat) (fr : nat * nat) : tp :=
    let fs := frags st in
    let fs := if (length fs <=? id - 1)%nat then fs ++ repeat (0%nat, 0%nat) (id - length fs) else fs in
    mkTp (data st) (upd fs (id - 1) fr).

  (** every result: success, the source that remains, the state *)
  Fixpoint parse (fuel : nat) (pat src : list Z) (st : tp) : outcome (bool * list Z * tp) :=
    (** textParser.tcc:57-130 *)
    match fuel with
    | O => NoFuel
    | S f =>
      match pat with
      | [] => Ok (match src with [] => true | _ => false end, src, st)
      | p :: pat =>
          if p =? 37 then
            match pat with
            | [] => Ok (true, src, st)
            | n :: pat' =>
                if escaped n then
                  match src with
                  | c :: src' => if n =? c then parse f pat' src' st else Ok (false, src, st)
                  | [] => Ok (false, src, st)
                  end
                else parseArg f pat src st (newStep st)
            end
          else if p =? 8 then
            let (once, src) := skipSet isWS src in if once : bool then parse f pat src st else Ok (false, src, st)
          else if p =? 9 then
            let (once, src) := skipSet isBlank src in if once : bool then parse f pat src st else Ok (false, src, st)
          else if p =? 10 then
            let (ok, src) := matchNl nl src in if ok : bool then parse f pat src st else Ok (false, src, st)
          else if p =? 32 then parse f pat (snd (skipSet (inWs ws) src)) st
          else if p =? 95 then
            let (once, src) := skipSet (inWs ws) src in if once : bool then parse f pat src st else Ok (false, src, st)
          else
            match src with
            | c :: src' => if c =? p then parse f pat src' st else Ok (false, src, st)
            | [] => Ok (false, src, st)
            end
      end
    end
  (** textParser.tcc:196-267; [inclass] is never set, since parseClass (270) is never called *)
  with parseArg (fuel : nat) (pat src : list Z) (st : tp) (ss : step) : outcome (bool * list Z * tp) :=
    match fuel with
    | O => NoFuel
    | S f =>
      match pat with
      | [] => Ok (false, src, st)
      | p :: r =>
          if p =? 60 then parseAlternateBranch f r src st
          else if p =? 124 then let! r := skipAllBranches f r in parse f r src st
          else if p =? 62 then parse f r src st
          else if p =? 91 then parseCharList f r src st (noAst ss)
          else if p =? 40 then
            let! (ok, ss, r) := parseRange r ss in
            if ok : bool then parseArg f r src st ss else Ok (false, src, st)
          else if p =? 42 then parseAsterix f 0 r src st (noAst ss)
          else if (p =? 39) || (p =? 113) then parseQuoted f r src st (noAst ss)
          else if p =? 37 then
            if defAst ss then parseAsterix f 0 pat src st (noAst ss)
            else let! st := eraseFrom st (dataBeg ss) in parse f r src st
          else if isDigit p then
            if defAst ss then parseAsterix f 0 pat src st (noAst ss)
            else
              let (ds, r) := takeWhileMax isDigit None pat in
              let r := match r with c :: r' => if c =? 37 then r' else r | [] => r end in
              let id := fragId ds in
              if (id =? 0)%nat then let! st := eraseFrom st (dataBeg ss) in parse f r src st
              else
                let st := setFrag st id (dataBeg ss, (length (data st) - dataBeg ss)%nat) in
                let! (res, src, st) := parse f r src st in
                Ok (res, src, if res : bool then st else setFrag st id (0%nat, 0%nat))
          else handleCustomPatterns f p r src st (noAst ss)
      end
    end
  (** textParser.tcc:290-317 *)
  with parseQuoted (fuel : nat) (pat src : list Z) (st : tp) (ss : step) : outcome (bool * list Z * tp) :=
    match fuel with
    | O => NoFuel
    | S f =>
      match pat with
      | q :: esc :: r =>
          match src with
          | c :: src' =>
              if c =? q then
                let! (src, st) := quotedLoop q esc src' st in parseArg f r src st ss
              else Ok (false, src, st)
          | [] => Ok (false, src, st)
          end
      | _ => Throw
      end
    end
  (** textParser.tcc:321-378 *)
  with parseCharList (fuel : nat) (pat src : list Z) (st : tp) (ss : step) : outcome (bool * list Z * tp) :=
    match fuel with
    | O => NoFuel
    | S f =>
      let! head := charListHead pat in
      match head with
      | None => Ok (false, src, st)
      | Some (ast, cond, list_, pat) =>
          let dataPos := length (data st) in
          if ast && (rmin ss =? 0)%nat then
            let! (ok, st') := enter f pat src st ss in
            if ok : bool then Ok (true, src, st') else charListLoop f dataPos ast cond list_ pat src st' ss
          else charListLoop f dataPos ast cond list_ pat src st ss
      end
    end
  (** textParser.tcc:341-377; the differences are unsigned *)
  with charListLoop (fuel dataPos : nat) (ast cond : bool) (list_ pat src : list Z) (st : tp) (ss : step)
    : outcome (bool * list Z * tp) :=
    match fuel with
    | O => NoFuel
    | S f =>
      let n := length (data st) in
      (* data.length() - dataPos; below dataPos it is a huge number *)
      let lessMax := if (n <? dataPos)%nat then match rmax ss with None => true | Some _ => false end
                     else under (n - dataPos) (rmax ss) in
      let finish :=
        if (dataPos <=? n)%nat && (n - dataPos <? rmin ss)%nat then Ok (false, src, st) else parseArg f pat src st ss in
      match src with
      | p :: src' =>
          if lessMax then
            if Bool.eqb (inList (S (length list_)) cond p list_) cond then
              let st := addData st p in
              let n := length (data st) in
              if ast && ((n <? dataPos)%nat || (rmin ss <=? n - dataPos)%nat) then
                let! (ok, st) := enter f pat src' st ss in
                if ok : bool then Ok (true, src', st) else charListLoop f dataPos ast cond list_ pat src' st ss
              else charListLoop f dataPos ast cond list_ pat src' st ss
            else finish
          else finish
      | [] => finish
      end
    end
  (** textParser.tcc:427-436: parseAsterixEnter *)
  with enter (fuel : nat) (pat src : list Z) (st : tp) (ss : step) : outcome (bool * tp) :=
    match fuel with
    | O => NoFuel
    | S f =>
      let pos := length (data st) in
      let! (ok, _, st') := parseArg f pat src st ss in
      if ok : bool then Ok (true, st')
      else if (pos <? length (data st'))%nat then let! st' := eraseFrom st' pos in Ok (false, st')
      else Ok (false, st')
    end
  (** textParser.tcc:441-457 *)
  with parseAsterix (fuel cnt : nat) (pat src : list Z) (st : tp) (ss : step) : outcome (bool * list Z * tp) :=
    match fuel with
    | O => NoFuel
    | S f =>
      match src with
      | c :: src' =>
          let! (ok, st) := (if (rmin ss <=? cnt)%nat then enter f pat src st ss else Ok (false, st)) in
          if ok : bool then Ok (true, src, st)
          else if under cnt (rmax ss) then parseAsterix f (S cnt) pat src' (addData st c) ss
          else Ok (false, src, st)
      | [] => if (cnt <? rmin ss)%nat then Ok (false, src, st) else parseArg f pat src st ss
      end
    end
  (** textParser.tcc:651-701, without a custom parser *)
  with handleCustomPatterns (fuel : nat) (command : Z) (pat src : list Z) (st : tp) (ss : step)
    : outcome (bool * list Z * tp) :=
    match fuel with
    | O => NoFuel
    | S f =>
      let num neg base := let '(ok, _, src, st) := parseNumber src (rmax ss) neg base st in Some (ok, src, st) in
      let r := if command =? 100 then num true 10
               else if command =? 117 then num false 10
               else if command =? 102 then Some (parseFloat src (rmax ss) st)
               else if command =? 120 then num true 16
               else if command =? 111 then num true 8
               else if command =? 105 then Some (parseIdentifier src (rmax ss) st)
               else None in
      match r with
      | None => Ok (false, src, st)
      | Some (ok, src', st') =>
          if negb ok then Ok (false, src', st')
          else if (length (data st') - length (data st) <? rmin ss)%nat then Ok (false, src', st')
          else parseArg f pat src' st' ss
      end
    end
  (** textParser.tcc:631-640: the source is not put back before the next branch *)
  with parseAlternateBranch (fuel : nat) (pat src : list Z) (st : tp) : outcome (bool * list Z * tp) :=
    match fuel with
    | O => NoFuel
    | S f =>
      let! (ok, src', st') := parse f pat src st in
      if ok : bool then Ok (true, src', st')
      else
        let! (x, pat') := skipToNextBranch f pat in
        if x : bool then parseAlternateBranch f pat' src' st' else parse f pat' src' st'
    end.

  (** textParser.tcc:34-42: operator() *)
  Definition run (fuel : nat) (pat src : list Z) : outcome (bool * tp) :=
    let! (ok, _, st) := parse fuel pat src (mkTp [] []) in Ok (ok, st).
End Parser.

(** textParser.tcc:544-549 and 481-483: the text of a field; a number outside throws *)
Definition result (st : tp) (n : nat) : outcome (list Z) :=
  if (n <? 1)%nat || (length (frags st) <? n)%nat then Throw
  else match nth_error (frags st) (n - 1) with
       | Some (b, l) => if (b + l <=? length (data st))%nat then Ok (firstn l (skipn b (data st))) else Undef
       | None => Undef
       end.

(** textParser.cpp:26-36, at type natural or lnatural (64 bits) *)
Fixpoint unsignedLoop (num : list Z) (base s : Z) : outcome Z :=
  match num with
  | [] => Ok s
  | x :: t =>
      let! q := (if (48 <=? x) && (x <=? 57) then Ok (x - 48)
                 else if (65 <=? x) && (x <=? 90) then Ok (x - 65 + 10)
                 else if (97 <=? x) && (x <=? 122) then Ok (x - 97 + 10)
                 else Throw) in
      if base <=? q then Throw else unsignedLoop t base ((s * base + q) mod 2 ^ 64)
  end.
(** textParser.cpp:21-38 *)
Fixpoint stringToUnsigned (num : list Z) (base : Z) : outcome Z :=
  match num with
  | [] => Throw
  | c :: t => if c =? 43 then stringToUnsigned t base else unsignedLoop num base 0
  end.
(** textParser.tcc:521-525: conversion of a field to lnatural *)
Definition resultNat (st : tp) (n : nat) : outcome Z := let! t := result st n in stringToUnsigned t 10.
