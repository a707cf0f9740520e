(** Property theorems for the Base85 converters (C06, C47). *)
From Verif Require Import Common Conv_Model Base64_Model Base64_Proof Base85_Model Base85_Spec Base85_Proof.
Local Open Scope N_scope.

(** C06 holds for lengths that are not multiples of four ... *)
Theorem C06_base85_roundtrip_partial : forall xs, bytes_ok xs -> Nat.modulo (length xs) 4 <> 0%nat ->
  exists txt, base85_encode xs = Ok txt /\ txt = b85_text alphabet85 xs /\ base85_decode txt = Ok xs.
Proof. exact base85_tail_roundtrip. Qed.
Print Assumptions C06_base85_roundtrip_partial.

(** ... and fails for every non-empty length that is one: flush emits the last group a
    second time, so the last four bytes come back twice. *)
Theorem C06_base85_roundtrip_refuted : forall xs, bytes_ok xs -> xs <> [] -> Nat.modulo (length xs) 4 = 0%nat ->
  exists txt, base85_encode xs = Ok txt
    /\ base85_decode txt = Ok (xs ++ skipn (length xs - 4) xs)
    /\ length (skipn (length xs - 4) xs) = 4%nat.
Proof. exact base85_aligned. Qed.
Print Assumptions C06_base85_roundtrip_refuted.

(** For an empty input flush hands out a buffer that was never written. *)
Theorem C06_base85_empty_refuted : base85_encode [] = Undef.
Proof. vm_compute. reflexivity. Qed.
Print Assumptions C06_base85_empty_refuted.

(** C47.  The decoder inverts the specified Base85 text of every byte sequence, pushed
    or pulled. *)
Theorem C47_base85_decoder : forall xs, bytes_ok xs -> base85_decode (b85_text alphabet85 xs) = Ok xs.
Proof. exact dec85_push. Qed.
Print Assumptions C47_base85_decoder.
Theorem C47_base85_decoder_pull : forall xs, bytes_ok xs -> forall fuel, (length xs <= fuel)%nat ->
  pull_n dec85_conv fuel dec85_init (b85_text alphabet85 xs) = Ok xs.
Proof. exact dec85_pull. Qed.
Print Assumptions C47_base85_decoder_pull.

Example c06_witness : base85_encode [1; 2; 3] = Ok [48; 114; 74; 117]
  /\ base85_decode [48; 114; 74; 117] = Ok [1; 2; 3].
Proof. vm_compute. auto. Qed.
Example c06_refuted_witness : exists txt, base85_encode [9; 8; 7; 6] = Ok txt
  /\ base85_decode txt = Ok [9; 8; 7; 6; 9; 8; 7; 6].
Proof. eexists. split; vm_compute; reflexivity. Qed.
Example c47_witness : base85_decode (b85_text alphabet85 [255; 255; 255; 255; 0; 0; 0; 0; 255]) = Ok [255; 255; 255; 255; 0; 0; 0; 0; 255].
Proof. vm_compute. reflexivity. Qed.
