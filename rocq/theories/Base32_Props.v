(** Property theorems for the Base32 converters (C03, C04). *)
From Verif Require Import Common Conv_Model Base64_Model Base32_Model Rfc4648_Spec Base64_Proof Base32_Proof.
Local Open Scope N_scope.

(** C03.  With a padding character (not 0, not in the alphabet), for every alphabet of
    32 distinct 7-bit characters: decoding the encoded text gives the bytes back. *)
Theorem C03_base32_roundtrip : forall t pad xs,
  alphabet32_ok t -> ~ In pad t -> pad <> 0 -> bytes_ok xs ->
  exists txt, base32_encode t pad xs = Ok txt /\ base32_decode (initTableCase 31 false t) pad txt = Ok xs.
Proof. exact base32_roundtrip_lem. Qed.
Print Assumptions C03_base32_roundtrip.

(** the padded text is the RFC 4648 text *)
Theorem C03_base32_is_rfc4648 : forall t pad xs,
  length t = 32%nat -> pad <> 0 -> bytes_ok xs ->
  base32_encode t pad xs = Ok (rfc_text 5 8 t pad xs).
Proof. exact base32_is_rfc_lem. Qed.
Print Assumptions C03_base32_is_rfc4648.

(** reading side: pulling the text through the decoder gives the same bytes *)
Theorem C03_base32_pull_decode : forall t tbl pad,
  table32_for t tbl -> (forall v, v < 32 -> chr t v <> pad) ->
  forall xs, bytes_ok xs -> forall fuel, (length xs <= fuel)%nat ->
  pull_n (dec32_conv tbl pad) fuel dec32_init (rfc_text 5 8 t pad xs) = Ok xs.
Proof. exact dec32_pull. Qed.
Print Assumptions C03_base32_pull_decode.

(** C04 is false of the code: with padding switched off, every input whose length is
    not a multiple of five loses its last character ... *)
Theorem C04_base32_nopad_truncated : forall t xs,
  length t = 32%nat -> bytes_ok xs -> Nat.modulo (length xs) 5 <> 0%nat ->
  base32_encode t 0 xs = Ok (removelast (rfc_text 5 8 t 0 xs)).
Proof. exact base32_nopad_loses. Qed.
Print Assumptions C04_base32_nopad_truncated.

(** ... so two different inputs are encoded alike and no decoder can recover them. *)
Theorem C04_base32_nopad_refuted :
  exists xs ys, bytes_ok xs /\ bytes_ok ys /\ xs <> ys
    /\ base32_encode alphabet32 0 xs = base32_encode alphabet32 0 ys
    /\ base32_decode (initTableCase 31 false alphabet32) 0 [65] = Ok []
    /\ base32_encode alphabet32 0 xs = Ok [65].
Proof. exists [1], [2]. repeat split; try (repeat constructor); discriminate. Qed.
Print Assumptions C04_base32_nopad_refuted.

(** The part of C04 that holds: lengths that are multiples of five. *)
Theorem C04_base32_nopad_aligned_partial : forall t xs,
  alphabet32_ok t -> ~ In 0 t -> bytes_ok xs -> Nat.modulo (length xs) 5 = 0%nat ->
  exists txt, base32_encode t 0 xs = Ok txt /\ base32_decode (initTableCase 31 false t) 0 txt = Ok xs.
Proof. exact base32_nopad_aligned. Qed.
Print Assumptions C04_base32_nopad_aligned_partial.

Example alphabet32_usable : alphabet32_ok alphabet32 /\ ~ In 61 alphabet32 /\ ~ In 0 alphabet32.
Proof. split; [exact alphabet32_is_ok|]. split; intros H; vm_compute in H; intuition discriminate. Qed.
Example c03_witness :
  bytes_ok [102; 111; 111; 98] /\
  base32_encode alphabet32 61 [102; 111; 111; 98] = Ok [77;90;88;87;54;89;81;61].
Proof. split; [repeat constructor|vm_compute; reflexivity]. Qed.
Example c03_decode_witness :
  base32_decode (initTableCase 31 false alphabet32) 61 [77;90;88;87;54;89;81;61] = Ok [102; 111; 111; 98].
Proof. vm_compute; reflexivity. Qed.
