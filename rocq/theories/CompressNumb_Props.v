(** Property theorems for compressed numbers (C10, C11). *)
From Verif Require Import Common CompressNumb_Model CompressNumb_Proof.
Local Open Scope N_scope.

(** C10.  Every 64 bit value is written as 1..9 bytes; the first byte alone tells
    how many; decoding gives the value back whatever follows in the buffer. *)
Theorem C10_compress_roundtrip : forall n rest, n < 2 ^ 64 ->
  bytes_ok (compress n) /\ (1 <= length (compress n) <= 9)%nat
  /\ (exists b t, compress n = b :: t /\ numberLength b = N.of_nat (length (compress n)))
  /\ decompress (compress n ++ rest) = Ok n.
Proof.
  intros n rest H. exact (conj (compress_bytes n H) (conj (len_bounds n H)
    (conj (first_byte_len n H) (roundtrip_u n rest H)))).
Qed.
Print Assumptions C10_compress_roundtrip.

(** larger values never get shorter encodings *)
Theorem C10_compress_monotone : forall a b, a <= b -> b < 2 ^ 64 ->
  (length (compress a) <= length (compress b))%nat.
Proof. exact len_mono. Qed.
Print Assumptions C10_compress_monotone.

(** C11 fails for the least 64 bit number only: its negation overflows ... *)
Theorem C11_compress_signed_refuted :
  exists z, (- 2 ^ 63 <= z < 2 ^ 63)%Z /\ compressSigned z = Undef.
Proof. exists (- 2 ^ 63)%Z. split; [lia|vm_compute; reflexivity]. Qed.
Print Assumptions C11_compress_signed_refuted.

(** ... and holds for every other one. *)
Theorem C11_compress_signed_partial : forall z rest, (- 2 ^ 63 < z < 2 ^ 63)%Z ->
  exists buf, compressSigned z = Ok buf /\ bytes_ok buf /\ (1 <= length buf <= 9)%nat
    /\ decompressSigned (buf ++ rest) = Ok z
    /\ exists b t, buf = b :: t /\ numberLength b = N.of_nat (length buf).
Proof. exact roundtrip_s. Qed.
Print Assumptions C11_compress_signed_partial.

Example c10_first_of_each_class :
  map (fun n => length (compress n)) [0x1F; 0x20; 0x201F; 0x2020; 0x202020; 0x20202020202020; 0x1F20202020201FFF; 0x1F20202020202020; 2 ^ 64 - 1]
  = [1; 2; 2; 3; 4; 8; 8; 9; 9]%nat.
Proof. vm_compute. reflexivity. Qed.
Example c10_max : compress (2 ^ 64 - 1) = [255; 255; 255; 255; 255; 255; 255; 255; 255]
  /\ decompress (compress (2 ^ 64 - 1) ++ [7]) = Ok (2 ^ 64 - 1).
Proof. vm_compute. auto. Qed.
Example c11_values : compressSigned (-1) = Ok [1] /\ compressSigned (- 2 ^ 63 + 1) = Ok [255; 255; 255; 255; 255; 255; 255; 255; 253].
Proof. vm_compute. auto. Qed.
