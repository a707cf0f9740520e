(** Percent-encoded texts and URL queries, independent of the code.  Characters are bytes. *)
From Coq Require Import ZArith.
From Verif Require Import Common.
Import ListNotations.
Local Open Scope Z_scope.

(** hexadecimal digits of either case *)
Inductive hexdigit : Z -> Z -> Prop :=
| hex_num d : 0 <= d <= 9 -> hexdigit (48 + d) d
| hex_upper d : 10 <= d <= 15 -> hexdigit (55 + d) d
| hex_lower d : 10 <= d <= 15 -> hexdigit (87 + d) d.
(** [escaped t b]: the text [t] stands for the bytes [b] *)
Inductive escaped : list Z -> list Z -> Prop :=
| esc_nil : escaped [] []
| esc_plain c t b : c <> 37 -> c <> 43 -> escaped t b -> escaped (c :: t) (c :: b)
| esc_plus t b : escaped t b -> escaped (43 :: t) (32 :: b)
| esc_hex x y h l t b : hexdigit x h -> hexdigit y l -> escaped t b -> escaped (37 :: x :: y :: t) (16 * h + l :: b).

(** the text an encoder writes: letters, digits, '_' and '-' as they are, the rest in capitals *)
Definition plain (c : Z) : bool :=
  ((65 <=? c) && (c <=? 90)) || ((97 <=? c) && (c <=? 122)) || ((48 <=? c) && (c <=? 57)) || (c =? 95) || (c =? 45).
Definition capital (d : Z) : Z := if d <? 10 then 48 + d else 55 + d.
Definition percent (c : Z) : list Z := if plain c then [c] else [37; capital (c / 16); capital (c mod 16)].
Definition percents (b : list Z) : list Z := flat_map percent b.

(** a cursor over a list *)
Inductive qop := HasItems | GetNext | Peek.
Inductive qanswer (A : Type) := Yes (b : bool) | Item (x : A).
Arguments Yes {A}. Arguments Item {A}.
Section Cursor.
  Context {A : Type}.
  Definition cursor (o : qop) (l : list A) : list A * option (qanswer A) :=
    match o, l with
    | HasItems, _ => (l, Some (Yes (match l with [] => false | _ => true end)))
    | GetNext, x :: l => (l, Some (Item x))
    | Peek, x :: _ => (l, Some (Item x))
    | _, [] => (l, None)
    end.
  (** the answers, and what is left; none if an item is asked for behind the end *)
  Fixpoint cursors (os : list qop) (l : list A) : option (list (qanswer A) * list A) :=
    match os with
    | [] => Some ([], l)
    | o :: os =>
        match cursor o l with
        | (l, Some a) => match cursors os l with Some (r, l) => Some (a :: r, l) | None => None end
        | (_, None) => None
        end
    end.
End Cursor.

(** [field t n v]: a part of a query that gives the name [n] the value [v] *)
Definition free (c : Z) (t : list Z) : Prop := Forall (fun x => x <> c) t.
Inductive field : list Z -> list Z -> list Z -> Prop :=
| field_value n e v : free 38 n -> free 61 n -> free 38 e -> escaped e v -> field (n ++ 61 :: e) n v
| field_flag n : n <> [] -> free 38 n -> free 61 n -> field n n [49].
(** parts joined with '&' *)
Fixpoint join (ts : list (list Z)) : list Z :=
  match ts with [] => [] | [t] => t | t :: ts => t ++ 38 :: join ts end.
