(** Property theorems for SHA-1 (C16, C144). *)
From Verif Require Import Common Md5_Spec Sha1_Spec Sha1_Model Sha1_Proof.
Local Open Scope N_scope.

(** C144.  For every width of [unsigned long] from 32 bits on, one object used for any number of
    messages, each given as any sequence of strings and streams, yields for each message the
    SHA-1 digest (FIPS 180-4) of the bytes of its pieces. *)
Theorem sha1_standard : forall W, 32 <= W -> forall l,
  Forall (Forall (fun p => match p with PString s | PStream s _ => bytes_ok s end)) l ->
  messages W sha1_new l = Ok (map (fun m => SHA1 (flat_map piece_bytes m)) l).
Proof. intros W HW l Hl. exact (messages_ok W HW l Hl). Qed.
Print Assumptions sha1_standard.

(** C16 for SHA-1.  The digest does not depend on how the bytes are cut, nor on what was hashed
    before with the same object. *)
Theorem C16_sha1_chunking : forall W, 32 <= W -> forall before m m',
  Forall (Forall (fun p => match p with PString s | PStream s _ => bytes_ok s end)) (before ++ [m; m']) ->
  flat_map piece_bytes m = flat_map piece_bytes m' ->
  exists ds d, messages W sha1_new (before ++ [m]) = Ok (ds ++ [d]) /\ messages W sha1_new [m'] = Ok [d].
Proof.
  intros W HW before m m' Hp E. apply Forall_app in Hp as [H1 H2].
  apply Forall_cons_iff in H2 as [H2 H3]. apply Forall_cons_iff in H3 as [H3 _].
  exists (map (fun m => SHA1 (flat_map piece_bytes m)) before), (SHA1 (flat_map piece_bytes m)).
  rewrite !sha1_standard; [|exact HW|constructor; [exact H3|constructor]|exact HW|apply Forall_app; split; [exact H1|constructor; [exact H2|constructor]]].
  rewrite map_app. cbn [map]. rewrite <- E. auto.
Qed.
Print Assumptions C16_sha1_chunking.

(** FIPS 180 example "abc", after another message of more than a block, 64-bit words *)
Example sha1_abc :
  match messages 64 sha1_new [[PString (repeat 200 130); PStream [1; 2] false]; [PString [97]; PStream [98; 99] true]] with
  | Ok [_; d] => d = [0xa9;0x99;0x3e;0x36;0x47;0x06;0x81;0x6a;0xba;0x3e;0x25;0x71;0x78;0x50;0xc2;0x6c;0x9c;0xd0;0xd8;0x9d]
  | _ => False
  end.
Proof. vm_compute. reflexivity. Qed.
(** the second example of FIPS 180, of 56 bytes: two blocks of padding *)
Example sha1_56 : SHA1 (flat_map (fun k => map N.of_nat (seq (97 + k) 4)) (seq 0 14)) =
  [0x84;0x98;0x3e;0x44;0x1c;0x3b;0xd2;0x6e;0xba;0xae;0x4a;0xa1;0xf9;0x51;0x29;0xe5;0xe5;0x46;0x70;0xf1].
Proof. vm_compute. reflexivity. Qed.
