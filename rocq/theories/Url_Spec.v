(** Specification of the URL (percent) encoding, independent of the converters. *)
From Verif Require Import Common.
Local Open Scope N_scope.

(** characters that may appear unescaped *)
Definition is_unreserved (c : N) : Prop :=
  65 <= c <= 90 \/ 97 <= c <= 122 \/ 48 <= c <= 57 \/ c = 95 \/ c = 45.
(** value of an upper case hexadecimal digit *)
Definition upper_hex (v : N) : N := if v <? 10 then 48 + v else 55 + v.
(** the text of one byte *)
Definition percent_text (b : N) (txt : list N) : Prop :=
  (is_unreserved b /\ txt = [b])
  \/ (~ is_unreserved b /\ txt = [37; upper_hex (b / 16); upper_hex (b mod 16)]).

