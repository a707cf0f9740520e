(** Property theorems for the UTF-8 converters (C08, C09, C48). *)
From Verif Require Import Common Conv_Model Utf_Model Utf_Spec Utf_Proof.
Local Open Scope N_scope.

(** C08.  For every sequence of wide characters below 2^31: converting to UTF-8 and
    back gives the same sequence, pushed or pulled on either side. *)
Theorem C08_utf8_roundtrip : forall skip cs, Forall wide_ok cs ->
  exists txt, utf8_encode cs = Ok txt /\ utf8_decode skip txt = Ok cs
    /\ (forall fuel, (length txt <= fuel)%nat -> pull_n wenc_conv fuel wenc_init cs = Ok txt)
    /\ (forall fuel, (length cs <= fuel)%nat -> pull_n (wdec_conv skip) fuel wdec_init txt = Ok cs).
Proof. exact utf_roundtrip_lem. Qed.
Print Assumptions C08_utf8_roundtrip.

(** C09 is false for exactly two code points ... *)
Theorem C09_utf8_shortest_refuted :
  exists c, code_point c /\ utf8_encode [c] <> Ok (utf8_standard c).
Proof. exists 0x7FF. split; [unfold code_point; lia|]. vm_compute. discriminate. Qed.
Print Assumptions C09_utf8_shortest_refuted.

(** ... and holds for all texts that contain neither U+07FF nor U+FFFF. *)
Theorem C09_utf8_shortest_partial : forall cs, Forall code_point cs -> ~ In 0x7FF cs -> ~ In 0xFFFF cs ->
  utf8_encode cs = Ok (flat_map utf8_standard cs).
Proof. exact utf_standard_lem. Qed.
Print Assumptions C09_utf8_shortest_partial.

(** C48.  The decoder fed with any bytes but 0xFE ends normally or, when invalid input
    is not to be skipped, with an exception: no undefined behaviour. *)
Theorem C48_utf8_decoder_safe_partial : forall skip bs, bytes_ok bs -> ~ In 0xFE bs ->
  (exists cs, utf8_decode skip bs = Ok cs) \/ (utf8_decode skip bs = Throw /\ skip = false).
Proof. exact utf_decode_safe. Qed.
Print Assumptions C48_utf8_decoder_safe_partial.

(** with 0xFE the accumulated value can leave the range of wchar_t *)
Theorem C48_utf8_decoder_safe_refuted :
  exists bs, bytes_ok bs /\ utf8_decode true bs = Undef.
Proof. exists [0xFE; 0xBF; 0xBF; 0xBF; 0xBF; 0xBF; 0xBF]. split; [repeat constructor|vm_compute; reflexivity]. Qed.
Print Assumptions C48_utf8_decoder_safe_refuted.

Example c08_witness : Forall wide_ok [0x41; 0x7FF; 0x20AC; 0xFFFF; 0x1F600; 0x7FFFFFFF]
  /\ utf8_encode [0x20AC] = Ok [0xE2; 0x82; 0xAC].
Proof. split; [repeat constructor|vm_compute; reflexivity]. Qed.
Example c09_overlong : utf8_encode [0x7FF] = Ok [0xE0; 0x9F; 0xBF] /\ utf8_standard 0x7FF = [0xDF; 0xBF].
Proof. vm_compute. auto. Qed.
Example c09_overlong2 : utf8_encode [0xFFFF] = Ok [0xF0; 0x8F; 0xBF; 0xBF] /\ utf8_standard 0xFFFF = [0xEF; 0xBF; 0xBF].
Proof. vm_compute. auto. Qed.
Example c48_skip : utf8_decode true [0xC3; 0x41; 0x80] = Ok [0x41; 0x80] /\ utf8_decode false [0xC3; 0x41] = Throw.
Proof. vm_compute. auto. Qed.
