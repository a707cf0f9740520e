(** Property theorems for the Base16 and URL converters (C05, C07). *)
From Verif Require Import Common Conv_Model Base64_Model Base32_Model Base16_Model Rfc4648_Spec Url_Spec
  Base64_Proof Base16_Proof.
Local Open Scope N_scope.

(** C05.  For every alphabet of 16 distinct 7-bit characters (both hexadecimal
    alphabets of the library are instances) and every byte sequence: two characters of
    the alphabet per byte, and decoding gives the bytes back. *)
Theorem C05_base16_roundtrip : forall t xs, alphabet16_ok t -> bytes_ok xs ->
  exists txt, base16_encode t xs = Ok txt /\ base16_decode t false txt = Ok xs
    /\ length txt = (2 * length xs)%nat /\ Forall (fun c => In c t) txt.
Proof. exact base16_roundtrip_lem. Qed.
Print Assumptions C05_base16_roundtrip.

(** The text is the RFC 4648 base16 text, pushed or pulled. *)
Theorem C05_base16_is_rfc4648 : forall t xs, length t = 16%nat -> bytes_ok xs ->
  base16_encode t xs = Ok (rfc_text 4 2 t 0 xs)
  /\ forall fuel, (length (rfc_text 4 2 t 0 xs) <= fuel)%nat ->
     pull_n (enc16_conv t) fuel enc16_init xs = Ok (rfc_text 4 2 t 0 xs).
Proof. exact enc16_all. Qed.
Print Assumptions C05_base16_is_rfc4648.

(** A decoder constructed with the flag set reads both letter cases. *)
Theorem C05_base16_both_cases : forall t xs, t = hexUpper \/ t = hexLower -> bytes_ok xs ->
  exists txt, base16_encode t xs = Ok txt
    /\ base16_decode hexUpper true txt = Ok xs /\ base16_decode hexLower true txt = Ok xs.
Proof. exact base16_both_lem. Qed.
Print Assumptions C05_base16_both_cases.

(** C07.  Every byte becomes itself (unreserved) or %XX with upper case digits, and
    decoding the whole text gives the bytes back. *)
Theorem C07_url_roundtrip : forall xs, bytes_ok xs ->
  exists txts, Forall2 percent_text xs txts
    /\ url_encode xs = Ok (concat txts) /\ url_decode (concat txts) = Ok xs.
Proof. exact url_roundtrip_lem. Qed.
Print Assumptions C07_url_roundtrip.

(** C07, pulling through ConvertReadIter on both sides. *)
Theorem C07_url_roundtrip_pull : forall xs, bytes_ok xs ->
  exists txt, url_encode xs = Ok txt
    /\ (forall fuel, (length txt <= fuel)%nat -> pull_n urlenc_conv fuel urlenc_init xs = Ok txt)
    /\ (forall fuel, (length xs <= fuel)%nat -> pull_n urldec_conv fuel urldec_init txt = Ok xs).
Proof. exact url_pull_lem. Qed.
Print Assumptions C07_url_roundtrip_pull.

Example hex_ok : alphabet16_ok hexUpper /\ alphabet16_ok hexLower.
Proof. exact hex_alphabets_ok. Qed.
Example c05_witness : base16_encode hexLower [0; 171; 255] = Ok [48;48;97;98;102;102].
Proof. vm_compute. reflexivity. Qed.
(** observed limits: the default (upper case) decoder on lower case digits, and a
    decoder left with an odd digit, read table cells that were never written *)
Example c05_case_undef : base16_decode hexUpper false [97; 97] = Undef.
Proof. vm_compute. reflexivity. Qed.
Example c05_odd_undef : base16_decode hexUpper false [65] = Undef.
Proof. vm_compute. reflexivity. Qed.
Example c07_witness : url_encode [97; 32; 47; 200] = Ok [97; 37;50;48; 37;50;70; 37;67;56].
Proof. vm_compute. reflexivity. Qed.
Example c07_decode_witness : url_decode [97; 43; 37;50;70] = Ok [97; 32; 47].
Proof. vm_compute. reflexivity. Qed.
