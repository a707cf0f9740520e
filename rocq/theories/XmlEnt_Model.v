(** Model of the entities of XMLIteratorT, /repo/src/lightspeed/utils/xmlparser.cpp.  Texts are lists of character codes; an ArrMid
    view (arrayt.h:277-288) is the list of its characters. *)
From Verif Require Import Common IntText_Model.
Open Scope Z_scope.

(** find of the first occurrence of a character; naturalNull is [None] *)
Fixpoint find (c : Z) (l : list Z) : option nat :=
  match l with
  | [] => None
  | x :: t => if x =? c then Some 0%nat else match find c t with Some n => Some (S n) | None => None end
  end.
Fixpoint eqText (a b : list Z) : bool :=
  match a, b with [], [] => true | x :: a, y :: b => (x =? y) && eqText a b | _, _ => false end.
(** xmlparser.cpp:126-144; [next] is the character behind the name, which is read for an empty name (line 134).  The result of
    parseUnsignedNumber is not tested; the number is read from the beginning of the name. *)
Definition loadEntity (name : list Z) (next : Z) : Z :=
  if eqText name [108; 116] then 60
  else if eqText name [103; 116] then 62
  else if eqText name [97; 109; 112] then 38
  else if eqText name [97; 112; 111; 115] then 39
  else if eqText name [113; 117; 111; 116] then 34
  else if hd next name =? 35 then
    if (1 <? length name)%nat && (nth 1 name 0 =? 104) then snd (fst (parseU (fun x => x mod 2 ^ 64) 16 name)) mod 2 ^ 32
    else snd (fst (parseU (fun x => x mod 2 ^ 64) 10 name)) mod 2 ^ 32
  else 38.
(** xmlparser.cpp:216-227 *)
Fixpoint fixLoop (fuel : nat) (buff text : list Z) (x : option nat) : outcome (list Z) :=
  match x with
  | None => Ok (buff ++ text)
  | Some x =>
      match fuel with
      | O => NoFuel
      | S fuel =>
          let buff := buff ++ firstn x text in
          let text := skipn (x + 1) text in
          match find 59 text with
          | Some y =>
              let buff := buff ++ [loadEntity (firstn y text) 59] in
              let text := skipn (y + 1) text in
              fixLoop fuel buff text (find 38 text)
          | None =>
              let buff := buff ++ [38] in
              fixLoop fuel buff text (find 38 text)
          end
      end
  end.
(** xmlparser.cpp:210-230 *)
Definition fixEntities (text : list Z) : outcome (list Z) :=
  match find 38 text with
  | None => Ok text
  | Some x => fixLoop (length text) [] text (Some x)
  end.
