(** Property theorems for MD5 (C16, C143, C145-C147). *)
From Verif Require Import Common Md5_Spec Md5_Model Md5_Proof.
Local Open Scope N_scope.

(** C143.  Whatever was in the memory of the object before, a hashing iterator that gets items
    one by one and in blocks, each call with less than 2^31 - 64 bytes, ends with the MD5 digest
    (RFC 1321) of the bytes handed on to the next iterator, which are all that were taken. *)
Theorem md5_standard : forall mem d x z cs, length mem = 64%nat ->
  Forall (fun c => (Z.of_nat (length (concat (taken_items c))) <= 2147483583)%Z) cs ->
  exists h h', hash_calls (hash_new mem d x z) cs = Ok h /\ hash_finish h = Ok h' /\
    digest h' = MD5 (concat (flat_map taken_items cs)) /\ forwarded h' = flat_map taken_items cs.
Proof.
  intros mem d x z cs Hm Hp.
  destruct (calls_ok cs (hash_new mem d x z) []) as (h & E & I & F); [split; [exact (init_inv mem Hm)|reflexivity]|exact Hp|].
  destruct (finish_hash h _ I) as (h' & E' & D & _ & _ & F').
  exists h, h'. split; [exact E|]. split; [exact E'|]. split; [exact D|]. rewrite F', F. reflexivity.
Qed.
Print Assumptions md5_standard.

(** C16 for MD5.  The digest does not depend on how the bytes are cut into calls. *)
Theorem C16_md5_chunking : forall mem mem' d x z d' x' z' cs cs', length mem = 64%nat -> length mem' = 64%nat ->
  Forall (fun c => (Z.of_nat (length (concat (taken_items c))) <= 2147483583)%Z) cs ->
  Forall (fun c => (Z.of_nat (length (concat (taken_items c))) <= 2147483583)%Z) cs' ->
  concat (flat_map taken_items cs) = concat (flat_map taken_items cs') ->
  exists h h', (let! h := hash_calls (hash_new mem d x z) cs in hash_finish h) = Ok h /\
    (let! h := hash_calls (hash_new mem' d' x' z') cs' in hash_finish h) = Ok h' /\ digest h = digest h'.
Proof.
  intros mem mem' d x z d' x' z' cs cs' Hm Hm' Hp Hp' E.
  destruct (md5_standard mem d x z cs Hm Hp) as (h1 & h1' & A1 & A2 & A3 & _).
  destruct (md5_standard mem' d' x' z' cs' Hm' Hp') as (h2 & h2' & B1 & B2 & B3 & _).
  exists h1', h2'. rewrite A1, B1. cbn [obind]. rewrite A2, B2, A3, B3, E. auto.
Qed.
Print Assumptions C16_md5_chunking.

(** C145.  The hexadecimal form is that of the digest, 32 lower case digits, however often it is
    asked for. *)
Theorem md5_hexdigest : forall mem d x z cs h h', length mem = 64%nat ->
  Forall (fun c => (Z.of_nat (length (concat (taken_items c))) <= 2147483583)%Z) cs ->
  hash_calls (hash_new mem d x z) cs = Ok h -> hash_finish h = Ok h' ->
  let (t, h1) := hash_hexdigest h' in
  t = lower_hex (MD5 (concat (flat_map taken_items cs))) /\ length t = 32%nat /\
  fst (hash_hexdigest h1) = t /\ digest h1 = digest h'.
Proof.
  intros mem d x z cs h h' Hm Hp E E'.
  destruct (calls_ok cs (hash_new mem d x z) []) as (g & Eg & I & _); [split; [exact (init_inv mem Hm)|reflexivity]|exact Hp|].
  rewrite E in Eg. injection Eg as <-.
  destruct (finish_hash h _ I) as (g' & Eg' & D & _ & Hx & _). rewrite E' in Eg'. injection Eg' as <-.
  rewrite app_nil_l in D. destruct (MD5_bytes (concat (flat_map taken_items cs))) as [B L]. rewrite <- D in B, L |- *.
  unfold hash_hexdigest. rewrite Hx. cbv zeta. cbn [digest hexdigest hex0].
  change (map _ _) with (map hex_char (flat_map (fun b => [N.shiftr b 4; N.land b 0xF]) (digest h'))).
  rewrite hex_ok by exact B. set (t := lower_hex (digest h')).
  assert (K : forall l, length (lower_hex l) = (2 * length l)%nat).
  { induction l as [|b l IH]; [reflexivity|]. unfold lower_hex in *. cbn [flat_map app length]. rewrite IH. lia. }
  split; [reflexivity|]. split; [unfold t; rewrite K, L; reflexivity|]. split; [|reflexivity].
  change (fst (if match t with [] => true | c :: _ => c =? 0 end then t else t, tt) = t).
  destruct (match t with [] => true | c :: _ => c =? 0 end); reflexivity.
Qed.
Print Assumptions md5_hexdigest.

(** C146, refuted.  A block of 2^31 bytes up to 2^32 - 1 is passed on but not hashed: the digest
    stays that of what came before, whatever the block holds. *)
Theorem md5_large_block_refuted : forall mem d x z cs block, length mem = 64%nat ->
  Forall (fun c => (Z.of_nat (length (concat (taken_items c))) <= 2147483583)%Z) cs ->
  (2147483648 <= Z.of_nat (length (concat block)) < 4294967296)%Z ->
  exists h, (let! h := hash_calls (hash_new mem d x z) (cs ++ [Items block (length block)]) in hash_finish h) = Ok h /\
    forwarded h = flat_map taken_items cs ++ block /\
    digest h = MD5 (concat (flat_map taken_items cs)).
Proof.
  intros mem d x z cs block Hm Hp Hb.
  destruct (calls_ok cs (hash_new mem d x z) []) as (h & E & I & F); [split; [exact (init_inv mem Hm)|reflexivity]|exact Hp|].
  assert (A : forall c h0 h1 e, hash_calls h0 c = Ok h1 -> hash_calls h0 (c ++ e) = hash_calls h1 e).
  { induction c as [|[y|b k] c IH]; intros h0 h1 e H0; cbn [app hash_calls] in *.
    - injection H0 as <-. reflexivity.
    - apply obind_ok in H0 as (g & G1 & G2). rewrite G1. cbn [obind]. apply IH, G2.
    - apply obind_ok in H0 as (g & G1 & G2). rewrite G1. cbn [obind]. apply IH, G2. }
  rewrite (A _ _ _ _ E). cbn [hash_calls]. unfold hash_blockWrite, append_natural.
  rewrite firstn_all. unfold to_int. rewrite Z.mod_small by lia.
  destruct (Z.ltb_spec (Z.of_nat (length (concat block))) 2147483648); [lia|].
  unfold md5_append. destruct (Z.leb_spec (Z.of_nat (length (concat block)) - 4294967296) 0); [|lia].
  cbn [obind]. destruct I as [I _].
  destruct (finish_ok (st h) _ I) as (s' & E' & _).
  unfold hash_finish. cbn [st obind]. rewrite E'. cbn [obind]. eexists. split; [reflexivity|].
  cbn [forwarded digest]. rewrite F. split; reflexivity.
Qed.
Print Assumptions md5_large_block_refuted.

(** C147, refuted.  Finishing (or flushing) a second time gives another digest: that of the
    padded message. *)
Theorem md5_second_finish : forall mem d x z cs h h', length mem = 64%nat ->
  Forall (fun c => (Z.of_nat (length (concat (taken_items c))) <= 2147483583)%Z) cs ->
  hash_calls (hash_new mem d x z) cs = Ok h -> hash_finish h = Ok h' ->
  exists h2, hash_finish h' = Ok h2 /\ digest h2 = MD5 (md5_pad (concat (flat_map taken_items cs))).
Proof.
  intros mem d x z cs h h' Hm Hp E E'.
  destruct (calls_ok cs (hash_new mem d x z) []) as (g & Eg & I & _); [split; [exact (init_inv mem Hm)|reflexivity]|exact Hp|].
  rewrite E in Eg. injection Eg as <-.
  destruct (finish_hash h _ I) as (g' & Eg' & D & I2 & _). rewrite E' in Eg'. injection Eg' as <-.
  destruct (finish_ok (st h') _ I2) as (s2 & E2 & _). unfold hash_finish. rewrite E2. cbn [obind].
  eexists. split; reflexivity.
Qed.
Print Assumptions md5_second_finish.
Definition no_memory : list N := repeat 7 64.
Theorem md5_flush_twice_refuted : exists h h',
  hash_finish (hash_new no_memory [] [] false) = Ok h /\ hash_finish h = Ok h' /\ digest h' <> digest h.
Proof.
  destruct (finish_hash (hash_new no_memory [] [] false) []) as (h & E & D & I & _).
  { split; [apply init_inv; reflexivity|reflexivity]. }
  destruct (finish_ok (st h) _ I) as (s2 & E2 & _).
  eexists h, _. split; [exact E|]. split; [unfold hash_finish; rewrite E2; reflexivity|].
  cbn [digest]. rewrite D. assert (X : nth 0 (MD5 (md5_pad [])) 0 <> nth 0 (MD5 []) 0) by (vm_compute; discriminate).
  congruence.
Qed.
Print Assumptions md5_flush_twice_refuted.

(** RFC 1321, A.5: "abc" in three calls, and the hypotheses on a message longer than a block *)
Example md5_abc :
  match (let! h := hash_calls (hash_new no_memory [] [] false) [Item [97]; Items [[98]; [120]] 1; Item [99]] in hash_finish h) with
  | Ok h => digest h = [0x90;0x01;0x50;0x98;0x3c;0xd2;0x4f;0xb0;0xd6;0x96;0x3f;0x7d;0x28;0xe1;0x7f;0x72]
            /\ fst (hash_hexdigest h) = [57;48;48;49;53;48;57;56;51;99;100;50;52;102;98;48;100;54;57;54;51;102;55;100;50;56;101;49;55;102;55;50]
  | _ => False
  end.
Proof. vm_compute. auto. Qed.
Example md5_long :
  let cs := [Items (repeat [1; 2] 40) 38; Item [9; 9; 9]; Items [] 0] in
  Forall (fun c => (Z.of_nat (length (concat (taken_items c))) <= 2147483583)%Z) cs /\
  MD5 (concat (flat_map taken_items cs)) <> MD5 [].
Proof. split; [repeat constructor; vm_compute; discriminate|vm_compute; discriminate]. Qed.
(** blocks as large as C146 speaks of exist *)
Example md5_large_exists : exists block : list (list N), (2147483648 <= Z.of_nat (length (concat block)) < 4294967296)%Z.
Proof.
  exists [repeat 0 (Z.to_nat 2147483648)]. cbn [concat]. rewrite app_nil_r, repeat_length, Z2Nat.id; lia.
Qed.
