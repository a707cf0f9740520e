(** Properties of the configuration parser (C297 to C305).  Texts are written with [tx]. *)
From Coq Require Import ZArith Lia List Ascii String.
From Verif Require Import Common Config_Spec Config_Model Config_Proof.
Import ListNotations.
Local Open Scope Z_scope.

(** ASCII text; the sign ~ stands for a line feed and ^ for a quotation mark *)
Fixpoint tx (s : string) : list Z :=
  match s with
  | EmptyString => []
  | String c r => (if Ascii.eqb c "~" then 10 else if Ascii.eqb c "^" then 34 else Z.of_nat (nat_of_ascii c)) :: tx r
  end.

(** C297 *)
Theorem config_read : forall ignoreErrors t f, document false t f -> len t < 2 ^ 31 -> parseIni ignoreErrors t = Ok f.
Proof.
  intros ig t f D L. unfold parseIni. destruct ig; [apply document_mono in D|]; apply (document_ok _ _ _ D); lia.
Qed.
Print Assumptions config_read.
Definition sample : list Z := tx "# head~[ net ]~host = example.org  ~port=80~# rest~[db]~key =^a\n\^b\~   c^~".
Lemma sample_ok : document false sample [(tx "net", tx "host", tx "example.org"); (tx "net", tx "port", tx "80"); (tx "db", tx "key", tx "a~^bc")]%list.
Proof.
  assert (B : forall c, c = 32 \/ c = 9 -> blank c) by (intros c [-> | ->]; repeat split; discriminate).
  change sample with (tx "# head~" ++ (91 :: tx " " ++ tx "net" ++ tx " " ++ [93]) ++
    tx "~" ++ (tx "host" ++ tx " " ++ 61 :: (tx " " ++ tx "example.org" ++ tx "  " ++ [10])) ++
    [] ++ (tx "port" ++ [] ++ 61 :: ([] ++ tx "80" ++ [] ++ [10])) ++
    tx "# rest~" ++ (91 :: [] ++ tx "db" ++ [] ++ [93]) ++
    tx "~" ++ (tx "key" ++ tx " " ++ 61 :: (34 :: tx "a\n\^b\~   c" ++ [34])) ++ tx "~")%list.
  Local Ltac nosp := unfold eol; repeat (apply Forall_cons || apply Forall_nil); try (split; [discriminate|]); try (intros [E|E]; discriminate E).
  apply d_section with (n := tx "net").
  { apply (gap_comment (tx " head") []); [repeat (apply Forall_cons; [discriminate|]); apply Forall_nil|constructor]. }
  { constructor; [repeat constructor; auto; discriminate..| |right; cbn; lia]. split; [discriminate|]. split; [split; reflexivity|]. nosp. }
  apply c_field; [apply gap_space; [reflexivity|constructor]| |].
  { constructor; [|repeat constructor; auto; discriminate|].
    - split; [discriminate|]. split; [split; reflexivity|]. split; [nosp|]. repeat split; discriminate.
    - constructor; [repeat constructor; discriminate..|left; reflexivity|split; reflexivity|nosp|right; right; cbn; lia|discriminate]. }
  apply c_field; [constructor| |].
  { constructor; [|constructor|].
    - split; [discriminate|]. split; [split; reflexivity|]. split; [nosp|]. repeat split; discriminate.
    - constructor; [constructor..|left; reflexivity|split; reflexivity|nosp|left; reflexivity|discriminate]. }
  apply c_section with (n := tx "db").
  { apply (gap_comment (tx " rest") []); [repeat (apply Forall_cons; [discriminate|]); apply Forall_nil|constructor]. }
  { constructor; [constructor..| |left; reflexivity]. split; [discriminate|]. split; [split; reflexivity|]. nosp. }
  apply c_field; [apply gap_space; [reflexivity|constructor]| |apply c_end, gap_space; [reflexivity|constructor]].
  constructor; [|repeat constructor; auto; discriminate|].
  - split; [discriminate|]. split; [split; reflexivity|]. split; [nosp|]. repeat split; discriminate.
  - constructor; [|split; reflexivity].
    apply q_plain; [discriminate..|intros [E|E]; discriminate E|]. apply q_n, q_quote.
    apply q_plain; [discriminate..|intros [E|E]; discriminate E|].
    apply (q_line 10 (tx "   ") (tx "c")); [left; reflexivity|repeat constructor|reflexivity|].
    apply q_plain; [discriminate..|intros [E|E]; discriminate E|]. constructor.
Qed.
Example config_read_ex : parseIni false sample =
  Ok [(tx "net", tx "host", tx "example.org"); (tx "net", tx "port", tx "80"); (tx "db", tx "key", tx "a~^bc")].
Proof. apply config_read; [apply sample_ok|reflexivity]. Qed.

(** C298 *)
Theorem config_errors :
  (forall t f, document true t f -> len t < 2 ^ 31 -> parseIni true t = Ok f) /\
  (forall t, spoiled t -> len t < 2 ^ 31 -> parseIni false t = Throw).
Proof.
  split.
  - intros t f D L. apply (document_ok _ _ _ D); lia.
  - intros t S L. apply (spoiled_ok t S); lia.
Qed.
Print Assumptions config_errors.
Definition badSample : list Z := tx "[a]~xyz~[q~c=^d~b=1~".
Example config_errors_ex : document true badSample [(tx "a", tx "b", tx "1")] /\ spoiled badSample.
Proof.
  assert (H : header (tx "[a]") (tx "a")).
  { apply (h_intro [] (tx "a") []); [constructor..| |left; reflexivity]. split; [discriminate|]. split; [split; reflexivity|]. nosp. }
  assert (J : badline (tx "xyz~")) by (apply (b_junk (tx "xyz")); [split; [repeat split; discriminate|]; nosp|left; reflexivity]).
  assert (J2 : badline (tx "[q~")) by (apply (b_section (tx "q")); [nosp|left; reflexivity]).
  assert (J3 : badline (tx "c=^d~")).
  { apply (b_quoted (tx "c") [] (tx "d")); [|constructor| |left; reflexivity].
    - split; [discriminate|]. split; [split; reflexivity|]. split; [nosp|]. repeat split; discriminate.
    - constructor; [|constructor]. split; [discriminate|]. split; [discriminate|]. intros [E|E]; discriminate E. }
  assert (G : gap (tx "~")) by (apply gap_space; [reflexivity|constructor]).
  split.
  - apply (d_section true [] (tx "[a]") (tx "a")); [constructor|exact H|].
    apply (c_bad true (tx "a") (tx "~") (tx "xyz~") (tx "[q~c=^d~b=1~")); [reflexivity|exact G|exact J|].
    apply (c_bad true (tx "a") [] (tx "[q~") (tx "c=^d~b=1~")); [reflexivity|constructor|exact J2|].
    apply (c_bad true (tx "a") [] (tx "c=^d~") (tx "b=1~")); [reflexivity|constructor|exact J3|].
    apply (c_field true (tx "a") [] (tx "b=1~") (tx "b") (tx "1") []); [constructor| |apply c_end; constructor].
    apply (a_intro (tx "b") [] (tx "1~") (tx "1")); [|constructor|].
    + split; [discriminate|]. split; [split; reflexivity|]. split; [nosp|]. repeat split; discriminate.
    + apply (v_plain [] (tx "1") [] 10); [constructor..|left; reflexivity|split; reflexivity|nosp|left; reflexivity|discriminate].
  - apply (s_section [] (tx "[a]") (tx "a") (tx "~xyz~[q~c=^d~b=1~")); [constructor|exact H|].
    apply (s_here (tx "~") (tx "xyz~") (tx "[q~c=^d~b=1~")); [exact G|exact J].
Qed.

(** C299: every text is read to its end in a bounded number of steps, also with errors *)
Theorem config_ends : forall ignoreErrors t, parseIni ignoreErrors t <> NoFuel.
Proof.
  intros ig t. unfold parseIni.
  pose proof (skip_ends (2 * length t + 3) (mkP t [] [] [])) as H. cbn [inp] in H. assert (Q : (length t < 2 * length t + 3)%nat) by lia. specialize (H Q).
  destruct (skipSection _ _) as [s| | |]; try contradiction; try discriminate. cbn [obind].
  apply merge_ends. pose proof (dots_le (sec s)). lia.
Qed.
Print Assumptions config_ends.
Example config_ends_ex : parseIni true (tx "[a]~..~.x~[~=~==^~=1~") = Ok [(tx ".", tx "", tx ""); (tx ".", tx "", tx "=^"); (tx ".", tx "", tx "1")].
Proof. vm_compute. reflexivity. Qed.

(** C300: a value or section name of one character behind white space *)
Theorem config_single_refuted :
  ~ (forall p v, Forall blank p -> trimmed v -> Forall (fun c => ~ eol c /\ c <> 34) v ->
      parseIni false (tx "[s]~x=" ++ p ++ v ++ [10]) = Ok [(tx "s", tx "x", v)]) /\
  parseIni false (tx "[s]~x= 5~") = Ok [(tx "s", tx "x", [])] /\
  parseIni false (tx "[s]~x=  5~") = Undef /\
  parseIni false (tx "[ s ]~x=5~") = Ok [].
Proof.
  split; [|vm_compute; repeat split].
  intro H. specialize (H (tx " ") (tx "5")).
  assert (Q : parseIni false (tx "[s]~x= 5~") = Ok [(tx "s", tx "x", tx "5")]).
  { apply H; [repeat constructor; discriminate|split; reflexivity|]. constructor; [|constructor]. split; [intros [E|E]|]; discriminate. }
  vm_compute in Q. discriminate Q.
Qed.
Print Assumptions config_single_refuted.

(** C301: the last line without a line end *)
Theorem config_last_line_refuted :
  ~ (forall t f, parseIni false (t ++ [10]) = Ok f -> parseIni false t = Ok f) /\
  parseIni false (tx "[s]~port=8080~") = Ok [(tx "s", tx "port", tx "8080")] /\
  parseIni false (tx "[s]~port=8080") = Ok [(tx "s", tx "port", tx "808")].
Proof.
  split; [|vm_compute; repeat split].
  intro H. specialize (H (tx "[s]~port=8080") [(tx "s", tx "port", tx "8080")] eq_refl). vm_compute in H. discriminate H.
Qed.
Print Assumptions config_last_line_refuted.

(** C302: white space and quotation marks *)
Theorem config_quotes_refuted :
  ~ (forall q v, quoted q v -> parseIni false (tx "[s]~x=^" ++ q ++ tx "^~") = Ok [(tx "s", tx "x", v)]) /\
  parseIni false (tx "[s]~x=^ ab ^~") = Ok [(tx "s", tx "x", tx "ab")] /\
  parseIni false (tx "[s]~x= ^a b^~") = Ok [(tx "s", tx "x", tx "^a b^")].
Proof.
  split; [|vm_compute; repeat split].
  intro H. specialize (H (tx "a ") (tx "a ")).
  assert (Q : parseIni false (tx "[s]~x=^a ^~") = Ok [(tx "s", tx "x", tx "a ")]).
  { apply H. apply q_plain; [discriminate..|intros [E|E]; discriminate E|]. apply q_plain; [discriminate..|intros [E|E]; discriminate E|]. constructor. }
  vm_compute in Q. discriminate Q.
Qed.
Print Assumptions config_quotes_refuted.

(** C303: the fields behind an include line *)
Theorem config_include_refuted :
  parseIni false (tx "[s]~a=1~.include file~b=2~") = Ok [(tx "s", tx "a", tx "1"); (tx ".", tx "b", tx "2")].
Proof. vm_compute. reflexivity. Qed.
Print Assumptions config_include_refuted.

(** C304: an empty section name ends the configuration without an error; an error before the
    first section is not ignored *)
Theorem config_rest_refuted :
  parseIni false (tx "[a]~x=1~[]~y=2~[b]~z=3~") = Ok [(tx "a", tx "x", tx "1")] /\
  parseIni false (tx "[]~[a]~x=1~") = Ok [] /\
  parseIni true (tx "bad~[a]~x=1~") = Throw.
Proof. vm_compute. repeat split. Qed.
Print Assumptions config_rest_refuted.

(** C305: the escape of the backspace; a value that is not closed; escaped bytes above 127 *)
Theorem config_escape_refuted :
  parseIni false (tx "[s]~x=^a\bc^~") = Ok [(tx "s", tx "x", [97; 13; 99])] /\
  parseIni false (tx "[s]~x=^abc\^") = Ok [(tx "s", tx "x", tx "abc^")] /\
  parseIni false (tx "[s]~x=^a\" ++ [195; 169] ++ tx "^~") = Ok [(tx "s", tx "x", [97; 169])].
Proof. vm_compute. repeat split. Qed.
Print Assumptions config_escape_refuted.
