(** Property theorems for the binary serialiser (C12, C49). *)
From Verif Require Import Common CompressNumb_Model BinSer_Model BinSer_Spec BinSer_Proof.
Local Open Scope N_scope.

(** C12.  For every script and every value it can hold: the writer succeeds, and the
    reader running the same script gets the value back and stops right behind it. *)
Theorem C12_binary_roundtrip : forall t v, fits t v ->
  exists bs, write t v = Ok bs /\ bytes_ok bs
    /\ forall rest, read t (mkR (bs ++ rest) []) = Ok (v, mkR rest []).
Proof.
  intros t v H. destruct (fits_roundtrip t v H) as (bs & A & B & C & _). exists bs. auto.
Qed.
Print Assumptions C12_binary_roundtrip.

(** C49 is false of every string of two or more characters: fewer characters are
    stored than announced, and loading fails. *)
Theorem C49_string_roundtrip_refuted : forall s, (2 <= length s)%nat -> N.of_nat (length s) < 2 ^ 64 ->
  exists bs, store_string s = Ok bs /\ load_string (mkR bs []) = Throw.
Proof. exact string_broken. Qed.
Print Assumptions C49_string_roundtrip_refuted.

(** it holds for strings of at most one character *)
Theorem C49_string_roundtrip_partial : forall s rest, (length s <= 1)%nat -> bytes_ok s ->
  exists bs, store_string s = Ok bs /\ load_string (mkR (bs ++ rest) []) = Ok (s, mkR rest []).
Proof.
  intros s rest H _. destruct s as [|c [|]]; [| |cbn in H; lia]; eexists; (split; [reflexivity|]); reflexivity.
Qed.
Print Assumptions C49_string_roundtrip_partial.

Definition demo_schema : schema :=
  TPair (TSigned 32) (TPair (TArray (TPair TWide TBool))
    (TDyn [65] (TUnsigned 16) (TDyn [66; 66] (TDefault [] TChar) TNoDyn))).
Definition demo_value : value :=
  VPair (VInt (-70000)) (VPair (VArray [VPair (VNat 0x20AC) (VBool true); VPair (VNat 65) (VBool false)])
    (VOther (VThis (VGiven (VNat 200))))).
Example c12_demo : fits demo_schema demo_value.
Proof.
  unfold demo_schema, demo_value. cbn [fits].
  split; [split; [lia|split; [split|]; vm_compute; congruence]|].
  split.
  - split; [|reflexivity]. repeat apply Forall_cons; try apply Forall_nil; (split; [reflexivity|exact I]).
  - split.
    + split; [|reflexivity]. repeat apply Forall_cons; try apply Forall_nil; split; reflexivity.
    + exists [66; 66]. split; [reflexivity|]. split; discriminate.
Qed.
Example c12_demo_bytes : exists bs, write demo_schema demo_value = Ok bs /\ length bs = 19%nat
  /\ read demo_schema (mkR (bs ++ [1;2]) []) = Ok (demo_value, mkR [1;2] []).
Proof. eexists. split; [vm_compute; reflexivity|]. vm_compute. auto. Qed.
(** a dynamic section with an empty name must be asked for first *)
Example c12_empty_name : read (TDyn [65] TChar (TDyn [] TChar TNoDyn)) (mkR (write_dyn_header [] ++ [7; endSection]) []) = Throw
  /\ read (TDyn [] TChar TNoDyn) (mkR (write_dyn_header [] ++ [7; endSection]) []) = Ok (VThis (VNat 7), mkR [] []).
Proof. vm_compute. auto. Qed.
Example c49_abc : store_string [97; 98; 99] = Ok [0xAA; 3; 97; 98; 0xEA].
Proof. reflexivity. Qed.
