(** Which values a script over given C++ types can hold. *)
From Verif Require Import Common BinSer_Model.
Local Open Scope N_scope.

(** C string: bytes other than 0 *)
Definition name_ok (n : list N) : Prop := Forall (fun b => 0 < b < 256) n.

(** name of the dynamic section a value selects *)
Fixpoint section_of (t : schema) (v : value) : option (list N) :=
  match t, v with
  | TDyn n _ _, VThis _ => Some n
  | TDyn _ _ o, VOther v => section_of o v
  | _, _ => None
  end.

Fixpoint fits (t : schema) (v : value) {struct t} : Prop :=
  match t, v with
  | TBool, VBool _ => True
  | TChar, VNat n => n < 256
  | TSigned w, VInt z => 1 <= w <= 64
      /\ (- 2 ^ (Z.of_N w - 1) <= z < 2 ^ (Z.of_N w - 1))%Z
      /\ z <> (- 2 ^ 63)%Z                       (* see C11 *)
  | TUnsigned w, VNat n => w <= 64 /\ n < 2 ^ w
  | TRaw k, VRaw bs => length bs = k /\ bytes_ok bs
  | TWide, VNat c => c < 2 ^ 31
  | TArray t', VArray l => Forall (fits t') l /\ N.of_nat (length l) < 2 ^ 64 - 1
  | TSection _ t', VSection v' => fits t' v'
  | TDefault _ t', VDefault => True
  | TDefault _ t', VGiven v' => fits t' v'
  | TUnit, VUnit => True
  | TPair a b, VPair x y => fits a x /\ fits b y
  | TDyn n t' _, VThis v' => name_ok n /\ fits t' v'
  | TDyn n _ o, VOther v' => fits o v'
      /\ exists m, section_of o v' = Some m /\ m <> [] /\ m <> n
  | _, _ => False
  end.
