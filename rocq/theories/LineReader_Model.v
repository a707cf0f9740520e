(** Model of TextLineReader, src/lightspeed/base/text/textLineReader.h.
    The source iterator is the list of the characters still to come. *)
From Verif Require Import Common.

(** containers/arrayt.h:289-292: the last [n] characters, or all there are *)
Definition tail (n : nat) (l : list Z) : list Z := skipn (length l - n) l.
(** containers/autoArray.tcc:181-184: trunc(n) removes the last [n] items *)
Definition trunc (n : nat) (l : list Z) : list Z := firstn (length l - n) l.

Definition zlist_eqb (a b : list Z) : bool := if list_eq_dec Z.eq_dec a b then true else false.

(** textLineReader.h:62-69, the loop; returns the buffer and the rest of the input *)
Fixpoint fetch (sep buffer input : list Z) : list Z * list Z :=
  match input with
  | [] => (buffer, [])
  | ch :: rest =>
      let buffer := buffer ++ [ch] in
      if zlist_eqb (tail (length sep) buffer) sep then (trunc (length sep) buffer, rest)
      else fetch sep buffer rest
  end.

(** the reader: input still to come, the buffer, and [needFetch] *)
Record reader := mkReader { r_input : list Z; r_buffer : list Z; r_need : bool }.
(** textLineReader.h:31-37 *)
Definition newReader (input : list Z) : reader := mkReader input [] true.

(** textLineReader.h:57-80 *)
Definition fetchLine (sep : list Z) (r : reader) : bool * reader :=
  if r_need r then
    match r_input r with
    | [] => (false, r)
    | _ => let '(b, i) := fetch sep [] (r_input r) in (true, mkReader i b false)
    end
  else (true, r).

(** textLineReader.h:83-86 *)
Definition hasItems (sep : list Z) (r : reader) : bool * reader := fetchLine sep r.
(** textLineReader.h:89-96 *)
Definition getNext (sep : list Z) (r : reader) : outcome (list Z * reader) :=
  let '(ok, r) := fetchLine sep r in
  if ok then Ok (r_buffer r, mkReader (r_input r) (r_buffer r) true) else Throw.
(** textLineReader.h:99-105 *)
Definition peek (sep : list Z) (r : reader) : outcome (list Z * reader) :=
  let '(ok, r) := fetchLine sep r in
  if ok then Ok (r_buffer r, r) else Throw.

(** the usual loop of a user: [while (reader.hasItems()) use(reader.getNext())] *)
Fixpoint readAll (fuel : nat) (sep : list Z) (r : reader) : outcome (list (list Z)) :=
  let '(more, r) := hasItems sep r in
  if more then
    match fuel with
    | O => NoFuel
    | S f =>
        let! (line, r) := getNext sep r in
        let! lines := readAll f sep r in
        Ok (line :: lines)
    end
  else Ok [].
