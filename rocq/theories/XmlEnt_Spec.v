(** Texts of XML attributes written with entities.  Texts are lists of character codes. *)
From Verif Require Import Common.
Open Scope Z_scope.

(** the five named entities: &lt; &gt; &amp; &apos; &quot; *)
Inductive entity : Z -> list Z -> Prop :=
| e_lt : entity 60 [38; 108; 116; 59]
| e_gt : entity 62 [38; 103; 116; 59]
| e_amp : entity 38 [38; 97; 109; 112; 59]
| e_apos : entity 39 [38; 97; 112; 111; 115; 59]
| e_quot : entity 34 [38; 113; 117; 111; 116; 59].
(** [written s t]: [t] is [s] with some characters, at least all ampersands, written as entities *)
Inductive written : list Z -> list Z -> Prop :=
| w_nil : written [] []
| w_plain : forall c s t, c <> 38 -> written s t -> written (c :: s) (c :: t)
| w_entity : forall c e s t, entity c e -> written s t -> written (c :: s) (e ++ t).
(** the usual writer: all five characters as entities *)
Definition escape1 (c : Z) : list Z :=
  if c =? 60 then [38; 108; 116; 59] else if c =? 62 then [38; 103; 116; 59] else if c =? 38 then [38; 97; 109; 112; 59]
  else if c =? 39 then [38; 97; 112; 111; 115; 59] else if c =? 34 then [38; 113; 117; 111; 116; 59] else [c].
Definition escape (s : list Z) : list Z := flat_map escape1 s.
(** a decimal reference of a character: &#65; *)
Definition dec_digits (l : list Z) : Prop := l <> [] /\ Forall (fun c => 48 <= c <= 57) l.
Definition dec_value (l : list Z) : Z := fold_left (fun a c => 10 * a + (c - 48)) l 0.
