(** HTTP messages on the wire, independent of the code (RFC 7230, sections 3 and 4.1). *)
From Coq Require Import ZArith String Ascii.
From Verif Require Import Common IntText_Spec Str_Spec.
Import ListNotations.
Local Open Scope Z_scope.

Definition tx (s : string) : list Z := map (fun a => Z.of_nat (nat_of_ascii a)) (list_ascii_of_string s).
Definition crlf : list Z := [13; 10].

(** header fields: the last value set for a name, the first value received for a name *)
Definition text_eqb (a b : list Z) : bool := match text_order a b with Eq => true | _ => false end.
Fixpoint first_value (k : list Z) (hs : list (list Z * list Z)) : option (list Z) :=
  match hs with [] => None | (k', v) :: hs => if text_eqb k k' then Some v else first_value k hs end.
Definition last_value (k : list Z) (hs : list (list Z * list Z)) : option (list Z) := first_value k (rev hs).
(** in strict order of the names, so every name at most once *)
Fixpoint in_order (hs : list (list Z * list Z)) : Prop :=
  match hs with
  | [] => True
  | (k, _) :: hs => Forall (fun e => text_order k (fst e) = Lt) hs /\ in_order hs
  end.

(** the head of a request *)
Definition field (e : list Z * list Z) : list Z := fst e ++ tx ": " ++ snd e ++ crlf.
Definition request_head (method path : list Z) (hs : list (list Z * list Z)) : list Z :=
  method ++ tx " " ++ path ++ tx " HTTP/1.1" ++ crlf ++ concat (map field hs) ++ crlf.

(** the chunked coding: [chunked ok body text], every size a hexadecimal numeral that is
    [ok], possibly followed by an extension; trailers are not allowed here *)
Definition extension (e : list Z) : Prop := match e with [] => True | c :: _ => c = 59 end /\ Forall (fun c => c <> 13) e.
Inductive chunked (ok : list Z -> Prop) : list Z -> list Z -> Prop :=
| chunked_last size ext : numeral 16 size 0 -> extension ext -> ok size ->
    chunked ok [] (size ++ ext ++ crlf ++ crlf)
| chunked_more size ext data body text : data <> [] -> numeral 16 size (Z.of_nat (length data)) -> extension ext -> ok size ->
    Z.of_nat (length data) < 2 ^ 64 ->
    chunked ok body text -> chunked ok (data ++ body) (size ++ ext ++ crlf ++ data ++ crlf ++ text).
Definition any_size (s : list Z) : Prop := True.
(** no small letter but at the first and at the last place *)
Definition small (c : Z) : Prop := 97 <= c.
Definition few_small (s : list Z) : Prop := Forall (fun c => ~ small c) (removelast (tl s)).

(** the head of a response; blanks are allowed around a value *)
Definition blank (c : Z) : Prop := c = 32 \/ c = 9.
Definition solid (t : list Z) : Prop := ~ blank (hd 0 t) /\ ~ blank (last t 0).
Definition no_cr (t : list Z) : Prop := Forall (fun c => c <> 13) t.
Record rfield := mkField { fname : list Z; fvalue : list Z; fbefore : list Z; fafter : list Z }.
Definition rfield_ok (f : rfield) : Prop :=
  fname f <> [] /\ solid (fname f) /\ solid (fvalue f) /\ no_cr (fname f) /\ no_cr (fvalue f) /\
  Forall (fun c => c <> 58) (fname f) /\ Forall blank (fbefore f) /\ Forall blank (fafter f).
Definition rfield_text (f : rfield) : list Z := fname f ++ [58] ++ fbefore f ++ fvalue f ++ fafter f ++ crlf.
Definition rfield_pair (f : rfield) : list Z * list Z := (fname f, fvalue f).
Definition response_head (version code reason : list Z) (fs : list rfield) : list Z :=
  version ++ [32] ++ code ++ [32] ++ reason ++ crlf ++ concat (map rfield_text fs) ++ crlf.
Definition head_ok (version code reason : list Z) (fs : list rfield) : Prop :=
  version <> [] /\ Forall (fun c => c <> 32) version /\ no_cr version /\ no_cr reason /\ Forall rfield_ok fs.

(** reading a body: a cursor over its bytes *)
Inductive rop := HasItems | GetNext | Peek.
Inductive ranswer := Yes (b : bool) | Byte (c : Z).
Definition cursor (o : rop) (b : list Z) : list Z * ranswer :=
  match o with
  | HasItems => (b, Yes (match b with [] => false | _ => true end))
  | GetNext => (tl b, Byte (hd 0 b))
  | Peek => (b, Byte (hd 0 b))
  end.
Fixpoint cursors (os : list rop) (b : list Z) : list Z * list ranswer :=
  match os with
  | [] => (b, [])
  | o :: os => let (b, a) := cursor o b in let (b, l) := cursors os b in (b, a :: l)
  end.
(** a byte is asked for only if there is one *)
Fixpoint in_body (os : list rop) (b : list Z) : Prop :=
  match os with
  | [] => True
  | HasItems :: os => in_body os b
  | GetNext :: os => b <> [] /\ in_body os (tl b)
  | Peek :: os => b <> [] /\ in_body os b
  end.
(** ... and nothing is asked after the first answer that there is none *)
Fixpoint stops (os : list rop) (b : list Z) : Prop :=
  match os with
  | [] => True
  | HasItems :: os => (b = [] -> os = []) /\ stops os b
  | GetNext :: os => stops os (tl b)
  | Peek :: os => stops os b
  end.

(** what is done between the start of a body and its end *)
Inductive bop := Write (c : Z) | Flush | MaxChunk (n : Z).
Definition written (os : list bop) : list Z := flat_map (fun o => match o with Write c => [c] | _ => [] end) os.
