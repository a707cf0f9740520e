(** What the text of a configuration means, independent of the parser.  Texts are lists of bytes. *)
From Coq Require Import ZArith Bool List.
Import ListNotations.
Local Open Scope Z_scope.

(** white space of the C locale *)
Definition space (c : Z) : bool := ((9 <=? c) && (c <=? 13)) || (c =? 32).
(** white space inside a line *)
Definition blank (c : Z) : Prop := space c = true /\ c <> 10 /\ c <> 13.
Definition eol (c : Z) : Prop := c = 10 \/ c = 13.
(** does not begin or end with white space *)
Definition trimmed (t : list Z) : Prop :=
  match t with [] => True | c :: _ => space c = false /\ space (last t 0) = false end.

(** between lines: white space and comments *)
Inductive gap : list Z -> Prop :=
| gap_nil : gap []
| gap_space c g : space c = true -> gap g -> gap (c :: g)
| gap_comment t g : Forall (fun c => c <> 10) t -> gap g -> gap (35 :: t ++ 10 :: g).

(** text inside quotes and its meaning *)
Inductive quoted : list Z -> list Z -> Prop :=
| q_nil : quoted [] []
| q_plain c q t : c <> 34 -> c <> 92 -> ~ eol c -> quoted q t -> quoted (c :: q) (c :: t)
| q_n q t : quoted q t -> quoted (92 :: 110 :: q) (10 :: t)
| q_r q t : quoted q t -> quoted (92 :: 114 :: q) (13 :: t)
| q_t q t : quoted q t -> quoted (92 :: 116 :: q) (9 :: t)
| q_a q t : quoted q t -> quoted (92 :: 97 :: q) (7 :: t)
| q_0 q t : quoted q t -> quoted (92 :: 48 :: q) (0 :: t)
| q_quote q t : quoted q t -> quoted (92 :: 34 :: q) (34 :: t)
| q_slash q t : quoted q t -> quoted (92 :: 92 :: q) (92 :: t)
| q_line c g q t : eol c -> Forall (fun c => space c = true) g -> match q with [] => True | c :: _ => space c = false end ->
    quoted q t -> quoted (92 :: c :: g ++ q) t.

(** the value of a line, up to its end *)
Inductive value : list Z -> list Z -> Prop :=
| v_plain p v e c : Forall blank p -> Forall blank e -> eol c -> trimmed v -> Forall (fun c => ~ eol c) v ->
    (p = [] \/ v = [] \/ (2 <= length v)%nat) -> hd 0 v <> 34 -> value (p ++ v ++ e ++ [c]) v
| v_quoted q v : quoted q v -> trimmed v -> value (34 :: q ++ [34]) v.
(** the name before the sign *)
Definition name (t : list Z) : Prop :=
  t <> [] /\ trimmed t /\ Forall (fun c => c <> 61 /\ ~ eol c) t /\ hd 0 t <> 91 /\ hd 0 t <> 46 /\ hd 0 t <> 35.
Definition section (t : list Z) : Prop := t <> [] /\ trimmed t /\ Forall (fun c => c <> 93 /\ ~ eol c) t.

(** a line that says nothing: no sign in it *)
Definition junk (t : list Z) : Prop :=
  match t with [] => False | c :: _ => space c = false /\ c <> 91 /\ c <> 46 /\ c <> 35 end /\ Forall (fun c => c <> 61 /\ ~ eol c) t.
(** bad lines: without the sign, with a section name that is not closed, with a quoted value that is not closed *)
Inductive badline : list Z -> Prop :=
| b_junk j c : junk j -> eol c -> badline (j ++ [c])
| b_section t c : Forall (fun c => c <> 93 /\ ~ eol c) t -> eol c -> badline (91 :: t ++ [c])
| b_quoted n e q c : name n -> Forall blank e -> Forall (fun c => c <> 34 /\ c <> 92 /\ ~ eol c) q -> eol c ->
    badline (n ++ e ++ 61 :: 34 :: q ++ [c]).
(** section header with its name *)
Inductive header : list Z -> list Z -> Prop :=
| h_intro p n e : Forall blank p -> Forall blank e -> section n -> (p = [] \/ (2 <= length n)%nat) -> header (91 :: p ++ n ++ e ++ [93]) n.
(** line with the name and the value of a field *)
Inductive assign : list Z -> list Z -> list Z -> Prop :=
| a_intro n e v w : name n -> Forall blank e -> value v w -> assign (n ++ e ++ 61 :: v) n w.

(** [config bad sec text fields]: the text, as continuation of section [sec], has these fields;
    bad lines are allowed when [bad] *)
Definition field : Type := list Z * list Z * list Z.
Inductive config (bad : bool) : list Z -> list Z -> list field -> Prop :=
| c_end s g : gap g -> config bad s g []
| c_section s g h n t f : gap g -> header h n -> config bad n t f -> config bad s (g ++ h ++ t) f
| c_field s g a n w t f : gap g -> assign a n w -> config bad s t f -> config bad s (g ++ a ++ t) ((s, n, w) :: f)
| c_bad s g b t f : bad = true -> gap g -> badline b -> config bad s t f -> config bad s (g ++ b ++ t) f.
(** lines before the first section count for nothing *)
Inductive document (bad : bool) : list Z -> list field -> Prop :=
| d_end g : gap g -> document bad g []
| d_section g h n t f : gap g -> header h n -> config bad n t f -> document bad (g ++ h ++ t) f
| d_field g a n w t f : gap g -> assign a n w -> document bad t f -> document bad (g ++ a ++ t) f.

(** a text of sections and fields with a bad line *)
Inductive spoiled : list Z -> Prop :=
| s_here g b t : gap g -> badline b -> spoiled (g ++ b ++ t)
| s_section g h n t : gap g -> header h n -> spoiled t -> spoiled (g ++ h ++ t)
| s_field g a n w t : gap g -> assign a n w -> spoiled t -> spoiled (g ++ a ++ t).
