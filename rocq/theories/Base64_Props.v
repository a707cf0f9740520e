(** Property theorems for the Base64 converters (C01, C02). *)
From Verif Require Import Common Conv_Model Base64_Model Rfc4648_Spec Base64_Proof.
Local Open Scope N_scope.

(** C01.  For every alphabet of 64 distinct 7-bit characters (the library's two
    alphabets are instances), every padding setting outside the alphabet (0 = none)
    and every byte sequence: encoding terminates normally and decoding the text gives
    the bytes back. *)
Theorem C01_base64_roundtrip : forall t pad xs,
  alphabet_ok t -> ~ In pad t -> bytes_ok xs ->
  exists txt, base64_encode t pad xs = Ok txt /\ base64_decode (initTable t) pad txt = Ok xs.
Proof. exact base64_roundtrip_lem. Qed.
Print Assumptions C01_base64_roundtrip.

(** C01 for the library's alphabets and paddings: the default-constructed decoder reads
    both the standard and the URL alphabet. *)
Theorem C01_base64_roundtrip_default : forall t pad xs, t = std_alphabet \/ t = url_alphabet ->
  pad = standardPadding \/ pad = noPadding -> bytes_ok xs ->
  exists txt, base64_encode t pad xs = Ok txt /\ base64_decode dec_table_default pad txt = Ok xs.
Proof. exact base64_roundtrip_default_lem. Qed.
Print Assumptions C01_base64_roundtrip_default.

(** C01, reading side: pulling the text through the decoder (ConvertReadIter) instead
    of pushing it gives the same bytes. *)
Theorem C01_base64_pull_decode : forall t tbl pad,
  table_for t tbl -> (forall v, v < 64 -> chr t v <> pad) ->
  forall xs, bytes_ok xs -> forall fuel, (length xs <= fuel)%nat ->
  pull_n (dec64_conv tbl pad) fuel dec64_init (rfc_text 6 4 t pad xs) = Ok xs.
Proof. exact dec_pull. Qed.
Print Assumptions C01_base64_pull_decode.

(** C02.  The encoder emits exactly the RFC 4648 text. *)
Theorem C02_base64_is_rfc4648 : forall t pad xs, length t = 64%nat -> bytes_ok xs ->
  base64_encode t pad xs = Ok (rfc_text 6 4 t pad xs).
Proof. exact enc_push. Qed.
Print Assumptions C02_base64_is_rfc4648.

Theorem C02_base64_is_rfc4648_pull : forall t pad xs, length t = 64%nat -> bytes_ok xs ->
  forall fuel, (length (rfc_text 6 4 t pad xs) <= fuel)%nat ->
  pull_n (enc64_conv t pad) fuel enc64_init xs = Ok (rfc_text 6 4 t pad xs).
Proof. exact enc_pull. Qed.
Print Assumptions C02_base64_is_rfc4648_pull.

(** the hypotheses are met by the library's own alphabets and settings *)
Example std_ok : alphabet_ok std_alphabet /\ ~ In standardPadding std_alphabet /\ ~ In noPadding std_alphabet.
Proof. split; [exact std_alphabet_ok|]. split; intros H; vm_compute in H; intuition discriminate. Qed.
Example url_ok : alphabet_ok url_alphabet /\ ~ In standardPadding url_alphabet /\ ~ In noPadding url_alphabet.
Proof. split; [exact url_alphabet_ok|]. split; intros H; vm_compute in H; intuition discriminate. Qed.
Example default_table : exists tbl, dec_table_default = Ok tbl /\ table_for std_alphabet tbl /\ table_for url_alphabet tbl.
Proof. exact table_default_for. Qed.
Example c01_witness :
  bytes_ok [0; 255; 16; 7; 131] /\
  base64_encode std_alphabet standardPadding [0; 255; 16; 7; 131] = Ok [65;80;56;81;66;52;77;61].
Proof. split; [repeat constructor|vm_compute; reflexivity]. Qed.
