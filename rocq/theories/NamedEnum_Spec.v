(** Tables of named values: what lookups should give. *)
From Verif Require Import Common.

(** a definition: the value and its name, characters are numbers *)
Definition defn := (Z * list Z)%type.
Definition has_name (l : list defn) (s : list Z) : Prop := exists v, In (v, s) l.
Definition has_value (l : list defn) (v : Z) : Prop := exists s, In (v, s) l.
(** the names separated *)
Fixpoint joined (sep : list Z) (l : list defn) : list Z :=
  match l with [] => [] | [d] => snd d | d :: t => snd d ++ sep ++ joined sep t end.
