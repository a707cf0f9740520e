(** JSON values and JSON texts (RFC 8259), independent of the code.  Texts are lists of
    bytes.  Strings are byte strings (UTF-8 if the program keeps to the standard). *)
From Verif Require Import Common Utf_Spec IntText_Spec.
Local Open Scope N_scope.

(** [JFloat t] is the floating point number written as the text [t] *)
Inductive json :=
| JNull
| JBool (b : bool)
| JInt (z : Z)
| JFloat (t : list N)
| JStr (s : list N)
| JArr (l : list json)
| JObj (m : list (list N * json)).

(** blanks between tokens *)
Definition blank (c : N) : Prop := c = 32 \/ c = 9 \/ c = 10 \/ c = 13.
Definition ws (w : list N) : Prop := Forall blank w.

(** hexadecimal digits of either case *)
Inductive hexdig : N -> N -> Prop :=
| hex_num d : d <= 9 -> hexdig (48 + d) d
| hex_upper d : 10 <= d <= 15 -> hexdig (65 + (d - 10)) d
| hex_lower d : 10 <= d <= 15 -> hexdig (97 + (d - 10)) d.

(** [\uXXXX] stands for the unit [c] *)
Inductive unit16 : list N -> N -> Prop :=
| unit16_i a b c d va vb vc vd : hexdig a va -> hexdig b vb -> hexdig c vc -> hexdig d vd ->
    unit16 [92; 117; a; b; c; d] (((va * 16 + vb) * 16 + vc) * 16 + vd).

(** escapes of one letter *)
Inductive short_esc : N -> N -> Prop :=
| esc_quote : short_esc 34 34
| esc_back : short_esc 92 92
| esc_slash : short_esc 47 47
| esc_b : short_esc 98 8
| esc_f : short_esc 102 12
| esc_n : short_esc 110 10
| esc_r : short_esc 114 13
| esc_t : short_esc 116 9.

(** One item of a string literal and the bytes it stands for.  [P] restricts the code
    points written with [\u]: [fun _ => True] is the whole of RFC 8259. *)
Inductive jchar (P : N -> Prop) : list N -> list N -> Prop :=
| jc_plain c : 32 <= c < 256 -> c <> 34 -> c <> 92 -> jchar P [c] [c]
| jc_short e c : short_esc e c -> jchar P [92; e] [c]
| jc_unit t c : unit16 t c -> c < 0xD800 \/ 0xE000 <= c -> P c -> jchar P t (utf8_standard c)
| jc_pair t1 t2 hi lo : unit16 t1 hi -> unit16 t2 lo -> 0xD800 <= hi < 0xDC00 -> 0xDC00 <= lo < 0xE000 ->
    P (0x10000 + (hi - 0xD800) * 1024 + (lo - 0xDC00)) ->
    jchar P (t1 ++ t2) (utf8_standard (0x10000 + (hi - 0xD800) * 1024 + (lo - 0xDC00))).

(** the text between the quotes *)
Inductive jchars (P : N -> Prop) : list N -> list N -> Prop :=
| jcs_nil : jchars P [] []
| jcs_cons t c ts cs : jchar P t c -> jchars P ts cs -> jchars P (t ++ ts) (c ++ cs).

(** integers: an optional minus and decimal digits without superfluous zeros *)
Definition digits (t : list N) (v : Z) : Prop :=
  numeral 10 (map Z.of_N t) v /\ no_leading_zero (map Z.of_N t).
Inductive int_text : list N -> Z -> Prop :=
| int_pos t v : digits t v -> int_text t v
| int_neg t v : digits t v -> int_text (45 :: t) (- v).

(** floating point numbers: an integer with a fraction, an exponent or both *)
Definition dig (c : N) : Prop := 48 <= c <= 57.
Definition frac (f : list N) : Prop := exists ds, f = 46 :: ds /\ ds <> [] /\ Forall dig ds.
Definition expo (e : list N) : Prop :=
  exists m s ds, e = m :: s ++ ds /\ (m = 101 \/ m = 69) /\ (s = [] \/ s = [43] \/ s = [45]) /\ ds <> [] /\ Forall dig ds.
Definition float_text (t : list N) : Prop :=
  exists i f e v, t = i ++ f ++ e /\ int_text i v /\ (f = [] \/ frac f) /\ (e = [] \/ expo e) /\ (f <> [] \/ e <> []).

(** The texts of a value.  Objects hold their members in the order of the text.
    Integers are limited to those with 64 bits, the smallest one left out. *)
Inductive jtext (P : N -> Prop) : json -> list N -> Prop :=
| T_null : jtext P JNull [110; 117; 108; 108]
| T_true : jtext P (JBool true) [116; 114; 117; 101]
| T_false : jtext P (JBool false) [102; 97; 108; 115; 101]
| T_int z t : (- 2 ^ 63 < z < 2 ^ 63)%Z -> int_text t z -> jtext P (JInt z) t
| T_float t : float_text t -> jtext P (JFloat t) t
| T_str s t : jchars P t s -> jtext P (JStr s) (34 :: t ++ [34])
| T_arr0 w : ws w -> jtext P (JArr []) (91 :: w ++ [93])
| T_arr l t : jelems P l t -> jtext P (JArr l) (91 :: t ++ [93])
| T_obj0 w : ws w -> jtext P (JObj []) (123 :: w ++ [125])
| T_obj m t : jmembers P m t -> jtext P (JObj m) (123 :: t ++ [125])
with jelems (P : N -> Prop) : list json -> list N -> Prop :=
| E_one v t w1 w2 : ws w1 -> jtext P v t -> ws w2 -> jelems P [v] (w1 ++ t ++ w2)
| E_more v t w1 w2 l ts : ws w1 -> jtext P v t -> ws w2 -> jelems P l ts ->
    jelems P (v :: l) (w1 ++ t ++ w2 ++ 44 :: ts)
with jmembers (P : N -> Prop) : list (list N * json) -> list N -> Prop :=
| M_one k tk v t w1 w2 w3 w4 : ws w1 -> jchars P tk k -> ws w2 -> ws w3 -> jtext P v t -> ws w4 ->
    jmembers P [(k, v)] (w1 ++ 34 :: tk ++ 34 :: w2 ++ 58 :: w3 ++ t ++ w4)
| M_more k tk v t w1 w2 w3 w4 m ts : ws w1 -> jchars P tk k -> ws w2 -> ws w3 -> jtext P v t -> ws w4 ->
    jmembers P m ts ->
    jmembers P ((k, v) :: m) (w1 ++ 34 :: tk ++ 34 :: w2 ++ 58 :: w3 ++ t ++ w4 ++ 44 :: ts).

(** the first member with a given name *)
Fixpoint find (k : list N) (m : list (list N * json)) : option json :=
  match m with
  | [] => None
  | (k', v) :: t => if list_eq_dec N.eq_dec k k' then Some v else find k t
  end.

(** names in the order in which objects are enumerated: bytes compared as signed *)
Definition sbyte (c : N) : Z := if c <? 128 then Z.of_N c else (Z.of_N c - 256)%Z.
Fixpoint klt (a b : list N) : Prop :=
  match a, b with
  | _, [] => False
  | [], _ :: _ => True
  | x :: a, y :: b => (sbyte x < sbyte y)%Z \/ (x = y /\ klt a b)
  end.
Fixpoint increasing (ks : list (list N)) : Prop :=
  match ks with
  | [] => True
  | k :: t => match t with [] => True | k' :: _ => klt k k' end /\ increasing t
  end.

(** [same v w]: both say the same; members of objects are found by name, the first one
    with a name counts *)
Inductive osame (R : json -> json -> Prop) : option json -> option json -> Prop :=
| osame_none : osame R None None
| osame_some v w : R v w -> osame R (Some v) (Some w).
Inductive same : json -> json -> Prop :=
| same_null : same JNull JNull
| same_bool b : same (JBool b) (JBool b)
| same_int z : same (JInt z) (JInt z)
| same_float t : same (JFloat t) (JFloat t)
| same_str s : same (JStr s) (JStr s)
| same_arr l l' : Forall2 same l l' -> same (JArr l) (JArr l')
| same_obj m m' : (forall k, osame same (find k m) (find k m')) -> same (JObj m) (JObj m').

(** values as the library holds them: names in order, each once; bytes; 64 bit integers
    other than the smallest; no floating point numbers *)
Inductive canonical (S : list N -> Prop) : json -> Prop :=
| can_null : canonical S JNull
| can_bool b : canonical S (JBool b)
| can_int z : (- 2 ^ 63 < z < 2 ^ 63)%Z -> canonical S (JInt z)
| can_str s : S s -> canonical S (JStr s)
| can_arr l : Forall (canonical S) l -> canonical S (JArr l)
| can_obj m : Forall (fun kv => S (fst kv) /\ canonical S (snd kv)) m -> increasing (map fst m) ->
    canonical S (JObj m).

(** what may follow a number in a text *)
Definition delimiter (c : N) : Prop := blank c \/ c = 44 \/ c = 93 \/ c = 125.
Definition is_number (v : json) : Prop := match v with JInt _ | JFloat _ => True | _ => False end.

(** objects enumerate their members in order, at every depth *)
Inductive ordered : json -> Prop :=
| ord_null : ordered JNull
| ord_bool b : ordered (JBool b)
| ord_int z : ordered (JInt z)
| ord_float t : ordered (JFloat t)
| ord_str s : ordered (JStr s)
| ord_arr l : Forall ordered l -> ordered (JArr l)
| ord_obj m : Forall (fun kv => ordered (snd kv)) m -> increasing (map fst m) -> ordered (JObj m).
