(** Property theorems for CRC-32 (C13, C14). *)
From Verif Require Import Common Crc32_Model Crc32_Spec Crc32_Proof.
Local Open Scope N_scope.

(** C13.  However the bytes are delivered, the result is the bitwise CRC-32 of all
    bytes delivered. *)
Theorem C13_crc32_standard : forall cs, Forall (fun c => bytes_ok (call_bytes c)) cs ->
  crc_run cs = crc32 (flat_map call_bytes cs).
Proof. exact run_ok. Qed.
Print Assumptions C13_crc32_standard.

(** C14.  Messages whose bits differ only within a window of 32 bits have different
    checksums ... *)
Theorem C14_crc32_burst : forall m1 m2 p x y s,
  flat_map byte_bits m1 = p ++ x ++ s -> flat_map byte_bits m2 = p ++ y ++ s ->
  length x = length y -> (length x <= 32)%nat -> x <> y ->
  bytes_ok m1 -> bytes_ok m2 ->
  crc_run [CBlock m1] <> crc_run [CBlock m2].
Proof.
  intros m1 m2 p x y s E1 E2 L L32 Hne B1 B2.
  rewrite !run_ok by (repeat constructor; assumption). cbn [flat_map call_bytes]. rewrite !app_nil_r.
  exact (burst m1 m2 p x y s E1 E2 L L32 Hne).
Qed.
Print Assumptions C14_crc32_burst.

(** ... in particular messages that differ within four neighbouring bytes, and so
    those that differ in one byte only. *)
Theorem C14_crc32_bytes : forall p x y s, bytes_ok p -> bytes_ok x -> bytes_ok y -> bytes_ok s ->
  length x = length y -> (length x <= 4)%nat -> x <> y ->
  crc_run [CBlock (p ++ x ++ s)] <> crc_run [CBlock (p ++ y ++ s)].
Proof.
  intros p x y s Hp Hx Hy Hs L L4 Hne.
  rewrite !run_ok by (repeat constructor; repeat (apply Forall_app; split); assumption).
  cbn [flat_map call_bytes]. rewrite !app_nil_r.
  exact (burst_bytes p x y s Hx Hy L L4 Hne).
Qed.
Print Assumptions C14_crc32_bytes.

(** the check value of the CRC catalogue: "123456789" *)
Example c13_check : crc_run [CBlock [49;50;51]; CWrite 52; CBlock [53;54;55;56;57]] = 0xCBF43926
  /\ crc32 [49;50;51;52;53;54;55;56;57] = 0xCBF43926.
Proof. vm_compute. auto. Qed.
Example c14_case : bytes_ok ([1;2] ++ [3;4;5;6] ++ [7]) /\ bytes_ok ([1;2] ++ [9;4;5;0] ++ [7])
  /\ length [3;4;5;6] = length [9;4;5;0] /\ [3;4;5;6] <> [9;4;5;0].
Proof. repeat split; try (repeat constructor); discriminate. Qed.
