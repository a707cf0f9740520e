(** Property theorems for LZWCompress / LZWDecompress (C15, C50). *)
From Verif Require Import Common Conv_Model Lzw_Model Lzw_Bits Lzw_Proof.
Local Open Scope N_scope.

(** C15.  Every byte sequence is compressed without error, with the same result whether
    the compressor is used as a write or as a read iterator, and decompressing gives the
    sequence back.  [maxBits] is the constructor argument; values above 15 are clamped. *)
Theorem C15_lzw_roundtrip : forall maxBits xs, 9 <= maxBits -> bytes_ok xs ->
  exists zs, lzw_compress maxBits xs = Ok zs /\ bytes_ok zs
    /\ (forall fuel, (length zs <= fuel)%nat -> pull_n lenc_conv fuel (lenc_init maxBits) xs = Ok zs)
    /\ (forall fuel, (length xs <= fuel)%nat -> lzw_decompress fuel zs = Ok xs).
Proof. exact lzw_roundtrip. Qed.
Print Assumptions C15_lzw_roundtrip.

(** C50 is false: after the end mark the decompressor keeps its dictionary and treats
    code 0 as the previous code, while the compressor starts from scratch.  Two streams
    of four bytes each, written to one decompressor one after the other: *)
Theorem C50_second_stream_refuted : exists xs ys zx zy,
  bytes_ok xs /\ bytes_ok ys /\ lzw_compress 12 xs = Ok zx /\ lzw_compress 12 ys = Ok zy
  /\ push_all ldec_conv ldec_init zx = Ok xs /\ push_all ldec_conv ldec_init zy = Ok ys
  /\ push_all ldec_conv ldec_init (zx ++ zy) <> Ok (xs ++ ys).
Proof.
  exists [97; 97; 97; 98], [99; 99; 99; 100]. eexists _, _.
  split; [repeat constructor|]. split; [repeat constructor|].
  split; [vm_compute; reflexivity|]. split; [vm_compute; reflexivity|].
  split; [vm_compute; reflexivity|]. split; [vm_compute; reflexivity|].
  vm_compute. discriminate.
Qed.
Print Assumptions C50_second_stream_refuted.

(** the case of a code used in the very step that defines it *)
Example c15_kwkwk : exists zs, lzw_compress 12 [97; 97; 97; 97; 97; 97; 97; 98] = Ok zs /\ length zs = 7%nat
  /\ lzw_decompress 8 zs = Ok [97; 97; 97; 97; 97; 97; 97; 98].
Proof. eexists. split; [vm_compute; reflexivity|]. vm_compute. auto. Qed.
