(** What the lines of a text are. *)
From Verif Require Import Common.

Definition contains (sep s : list Z) : Prop := exists a b, s = a ++ sep ++ b.

(** The lines a text consists of: each line is followed by the separator, at the first
    place where the separator occurs; a text that does not end with a separator has a last
    line without one. *)
Inductive lines (sep : list Z) : list Z -> list (list Z) -> Prop :=
| lines_nil : lines sep [] []
| lines_last l : l <> [] -> ~ contains sep l -> lines sep l [l]
| lines_cons l rest ls :
    (forall a b, l ++ sep = a ++ sep ++ b -> a = l) ->   (* the first occurrence *)
    lines sep rest ls -> lines sep (l ++ sep ++ rest) (l :: ls).
