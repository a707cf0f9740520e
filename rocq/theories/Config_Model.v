(** Model of the configuration parser (src/lightspeed/utils/configParser.tcc, .cpp, .h).

    Texts are lists of bytes 0 to 255.  Simplified: texts are shorter than 2^31; isspace of a
    negative char is false, as in the C locale; the line ".include" calls the default
    callback, which gives an empty text (configParser.cpp:29-31); the fields are kept in the
    order of insertion (the map is treated in Map_Model). *)
From Coq Require Import ZArith List Bool.
From Verif Require Import Common Config_Spec.
Import ListNotations.
Local Open Scope Z_scope.

(** arrayt.h:267-272 with the arguments converted to 64 bit unsigned numbers; a length that does
    not fit the text is undefined *)
Definition mid (t : list Z) (pos count : Z) : outcome (list Z) :=
  let l := Z.of_nat (length t) in
  let pos := pos mod 2 ^ 64 in let count := count mod 2 ^ 64 in
  if l <=? pos then Ok []
  else
    let count := if l <? (pos + count) mod 2 ^ 64 then l - pos else count in
    if l <? pos + count then Undef
    else Ok (firstn (Z.to_nat count) (skipn (Z.to_nat pos) t)).

(** configParser.tcc:255-267: the inner loop finds the last character after the first one that
    is not white space, and leaves the outer loop at its end as well *)
Fixpoint lastOf (t : list Z) (i e : Z) : Z :=
  match t with [] => e | c :: t => lastOf t (i + 1) (if space c then e else i) end.
Fixpoint bounds (t : list Z) (i : Z) : Z * Z :=
  match t with [] => (0, -1) | c :: t => if space c then bounds t (i + 1) else (i, lastOf t (i + 1) 0) end.
Definition trim (t : list Z) : outcome (list Z) := let (b, e) := bounds t 0 in mid t b (e - b + 1).

(** the parser: rest of the input, curSection, curVar, curValue (configParser.h:20-26) *)
Record pst := mkP { inp : list Z; sec : list Z; var : list Z; val : list Z }.

(** configParser.tcc:269-291; [com]: inside a comment *)
Fixpoint skipNot (com : bool) (t : list Z) : list Z :=
  match t with
  | [] => []
  | c :: r =>
      if com then skipNot (negb (c =? 10)) r
      else if space c then skipNot false r
      else if c =? 35 then skipNot true r
      else t
  end.
(** the loops that fill the buffer up to a character *)
Fixpoint takeTo (stop : Z -> bool) (t : list Z) : list Z * list Z :=
  match t with
  | [] => ([], [])
  | c :: r => if stop c then ([], t) else let (b, r) := takeTo stop r in (c :: b, r)
  end.
Definition isEol (c : Z) : bool := (c =? 13) || (c =? 10).

(** result of a line: [None] is the exception Error *)
Definition lineRes : Type := pst * option bool.

(** configParser.tcc:134-146 *)
Definition parseSection (s : pst) : outcome lineRes :=
  match inp s with
  | [] => Undef
  | _ :: t =>
      match takeTo (fun c => (c =? 93) || isEol c) t with
      | (b, c :: r) =>
          if c =? 93 then let! n := trim b in Ok (mkP r n (var s) (val s), Some false)
          else Ok (mkP (c :: r) (sec s) (var s) (val s), None)
      | (b, []) => Ok (mkP [] (sec s) (var s) (val s), None)
      end
  end.

(** configParser.tcc:190-206; -1 (no character) is [None]; 'b' gives a carriage return *)
Fixpoint skipSpace (t : list Z) : list Z :=
  match t with [] => [] | c :: r => if space c then skipSpace r else t end.
Definition escaped (c : Z) (r : list Z) : option Z * list Z :=
  if c =? 110 then (Some 10, r) else if c =? 114 then (Some 13, r) else if c =? 116 then (Some 9, r)
  else if c =? 97 then (Some 7, r) else if c =? 98 then (Some 13, r) else if c =? 48 then (Some 0, r)
  else if isEol c then (None, skipSpace r)
  else (if c <? 128 then Some c else None, r).
(** configParser.tcc:213-227: the characters, whether the last one read closes the value (line
    225 looks only at the last one), the rest *)
Fixpoint quotedLoop (fuel : nat) (t : list Z) (nx : Z) : outcome (list Z * bool * list Z) :=
  match fuel with
  | O => NoFuel
  | S fuel =>
      match t with
      | [] => Ok ([], nx =? 34, [])
      | c :: r =>
          match r with
          | e :: r' =>
              if c =? 92 then
                let (x, q) := escaped e r' in
                let! (b, ok, q) := quotedLoop fuel q (match x with Some x => x | None => -1 end) in
                Ok (match x with Some x => x :: b | None => b end, ok, q)
              else if (c =? 34) || isEol c then Ok ([], c =? 34, r)
              else let! (b, ok, q) := quotedLoop fuel r c in Ok (c :: b, ok, q)
          | [] =>
              if (c =? 34) || isEol c then Ok ([], c =? 34, r)
              else let! (b, ok, q) := quotedLoop fuel r c in Ok (c :: b, ok, q)
          end
      end
  end.
(** configParser.tcc:228-235: [nx] is already read, [t] is the rest *)
Fixpoint plainLoop (nx : Z) (t : list Z) : list Z * list Z :=
  match t with
  | [] => ([], [])
  | c :: r => if isEol nx then ([], t) else let (b, q) := plainLoop c r in (nx :: b, q)
  end.
(** configParser.tcc:208-237; [None]: exception *)
Definition parseValue (t : list Z) : outcome (option (list Z) * list Z) :=
  match t with
  | [] => Ok (Some [], [])
  | c :: r =>
      if c =? 34 then
        let! (b, ok, q) := quotedLoop (S (length r)) r c in
        if (ok : bool) then let! v := trim b in Ok (Some v, q) else Ok (None, q)
      else let (b, q) := plainLoop c r in let! v := trim b in Ok (Some v, q)
  end.
(** configParser.tcc:148-153, 155-167 *)
Definition parseField (s : pst) : outcome lineRes :=
  match takeTo (fun c => (c =? 61) || isEol c) (inp s) with
  | (b, c :: r) =>
      if c =? 61 then
        let! n := trim b in
        let! (v, q) := parseValue r in
        match v with
        | Some v => Ok (mkP q (sec s) n v, Some true)
        | None => Ok (mkP q (sec s) n (val s), None)
        end
      else Ok (mkP (c :: r) (sec s) (var s) (val s), None)
  | (b, []) => Ok (mkP [] (sec s) (var s) (val s), None)
  end.
(** configParser.tcc:169-188: at first only the section changes *)
Definition parseSpecial (s : pst) : outcome lineRes :=
  match sec s with
  | [46] =>
      match takeTo (fun c => (c =? 32) || isEol c) (inp s) with
      | (b, c :: r) =>
          if c =? 32 then
            let! n := trim b in
            let! (v, q) := parseValue r in
            match v with
            | Some v => Ok (mkP q (sec s) n v, Some true)
            | None => Ok (mkP q (sec s) n (val s), None)
            end
          else Ok (mkP (c :: r) (sec s) (var s) (val s), None)
      | (b, []) => Ok (mkP [] (sec s) (var s) (val s), None)
      end
  | _ => Ok (mkP (inp s) [46] (var s) (val s), Some false)
  end.
(** configParser.tcc:56-76 *)
Definition getNextLine (s : pst) : outcome lineRes :=
  let t := skipNot false (inp s) in
  let s := mkP t (sec s) (var s) (val s) in
  match t with
  | [] => Ok (mkP [] [] (var s) (val s), Some false)
  | c :: _ => if c =? 91 then parseSection s else if c =? 46 then parseSpecial s else parseField s
  end.

(** configParser.tcc:128-131 *)
Fixpoint skipSection (fuel : nat) (s : pst) : outcome pst :=
  match fuel with
  | O => NoFuel
  | S fuel =>
      let! (s, r) := getNextLine s in
      match r with Some true => skipSection fuel s | Some false => Ok s | None => Throw end
  end.
(** configParser.tcc:297-316: the loops of merge *)
Fixpoint mergeLoop (fuel : nat) (ignoreErrors : bool) (s : pst) : outcome (list field) :=
  match fuel with
  | O => NoFuel
  | S fuel =>
      match sec s with
      | [] => Ok []
      | _ =>
          let! (s, r) := getNextLine s in
          match r with
          | Some true =>
              let! l := mergeLoop fuel ignoreErrors s in
              match var s with
              | 46 :: _ => Ok l
              | _ => Ok ((sec s, var s, val s) :: l)
              end
          | Some false => mergeLoop fuel ignoreErrors s
          | None => if ignoreErrors then mergeLoop fuel ignoreErrors s else Throw
          end
      end
  end.
(** configParser.tcc:293-317 *)
Definition parseIni (ignoreErrors : bool) (t : list Z) : outcome (list field) :=
  let fuel := (2 * length t + 3)%nat in
  let! s := skipSection fuel (mkP t [] [] []) in mergeLoop fuel ignoreErrors s.
