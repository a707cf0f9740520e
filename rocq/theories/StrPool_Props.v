(** Properties of the string pool (C349 to C355). *)
From Coq Require Import ZArith.
From Verif Require Import Common StrPool_Spec StrPool_Model StrPool_Proof.
Open Scope Z_scope.

Definition ops1 : list op := [Add [97; 98; 99] true true; AddConst [(100, false); (101, true)] false; Add [] true true; AddPart 2 1 2;
  Writes [([(102, true); (103, true)], true); ([(106, false)], true)]; FreeExtra true; Add [104] false true; Release 12; Add [105] true false].

(** C349: whatever is added later and however the pool moves in memory, a reference gives the string that was added, as long as it
    is not released and the pool holds less than 2^32 characters *)
Theorem sp_read : forall z l p b r s f, run z l (empty_pool, []) = Some (p, b) -> In (r, s, f) b -> read r p = Ok s.
Proof.
  intros z l p b r s f E I. destruct (run_ok z l _ _ (init_ok z) E) as (_ & R & F). cbn [fst snd] in *. rewrite Forall_forall in F.
  apply (good_read z p r s f R). apply F. exact I.
Qed.
Example sp_read_ex : match run true ops1 (empty_pool, []) with
  | Some (p, b) => Some (items p, map (fun e => read (fst (fst e)) p) b)
  | None => None end = Some ([97; 98; 99; 0; 100; 101; 0; 102; 103; 0; 106; 0; 105; 0], [Ok [105]; Ok [106]; Ok [102; 103]; Ok [98; 99]; Ok []; Ok [100; 101]; Ok [97; 98; 99]]).
Proof. vm_compute. reflexivity. Qed.

(** C350: in a pool of characters every copied string is closed by a zero *)
Theorem sp_zero : forall l p b r s, run true l (empty_pool, []) = Some (p, b) -> In (r, s, true) b -> s <> [] ->
  nth_error (items p) (Z.to_nat (off r + len r)) = Some 0.
Proof.
  intros l p b r s E I N. destruct (run_ok true l _ _ (init_ok true) E) as (_ & R & F). cbn [fst snd] in *. rewrite Forall_forall in F.
  destruct (F _ I) as (L & a & q & Q & O & Z0). destruct (Z0 eq_refl eq_refl N) as (q' & ->). rewrite Q, L, O.
  replace (Z.to_nat (Z.of_nat (length a) + Z.of_nat (length s))) with (length a + length s)%nat by lia.
  rewrite nth_error_app2 by lia. rewrite nth_error_app2 by lia. replace (length a + length s - length a - length s)%nat with 0%nat by lia. reflexivity.
Qed.
Example sp_zero_ex : exists p b, run true ops1 (empty_pool, []) = Some (p, b) /\ In (mkRef 7 2, [102; 103], true) b.
Proof. eexists. eexists. split; [vm_compute; reflexivity|]. cbn. auto. Qed.

(** C351: in a pool without closing zeros, fromMark gives all that was added since the mark *)
Fixpoint texts (l : list op) : option (list Z) :=
  match l with
  | [] => Some []
  | Add s _ _ :: t => option_map (app s) (texts t)
  | AddConst c _ :: t => option_map (app (map fst c)) (texts t)
  | Writes w :: t => option_map (app (concat (map (fun x => map fst (fst x)) w))) (texts t)
  | FreeExtra _ :: t => texts t
  | _ => None
  end.
Lemma session_items w : forall p b k, items (fst (session false k w p b)) = items p ++ concat (map (fun x => map fst (fst x)) w).
Proof.
  induction w as [|[c mv] w IH]; cbn [session map concat fst]; intros p b k; [cbn; rewrite app_nil_r; reflexivity|].
  unfold finish. rewrite writes_all, IH. cbn. destruct (addAll_eq c p) as [-> _]. rewrite <- app_assoc. reflexivity.
Qed.
Theorem sp_mark : forall l l' p b p' b' t, run false l (empty_pool, []) = Some (p, b) -> run false l' (p, b) = Some (p', b') -> texts l' = Some t ->
  read (fromMark (size p) p') p' = Ok t.
Proof.
  intros l l' p b p' b' t E1 E2 T. pose proof (run_ok false l _ _ (init_ok false) E1) as V. pose proof (run_ok false l' _ _ V E2) as V'.
  assert (Q : items p' = items p ++ t).
  { clear - E2 T. revert p b t E2 T. induction l' as [|o l' IH]; cbn [run texts]; intros p b t E T; [injection E as <- <-; injection T as <-; rewrite app_nil_r; reflexivity|].
    destruct (exec false o (p, b)) as [[p1 b1]|] eqn:X; [|discriminate]. destruct o as [s mv mv'|i k n|c mv|ws|m|mv|]; try discriminate.
    - destruct (texts l') as [t'|]; [|discriminate]. injection T as <-. rewrite (IH _ _ _ E eq_refl). rewrite app_assoc. f_equal.
      cbn [exec] in X. unfold add in X. destruct s as [|x s]; destruct (size _ <? 2 ^ 32); try discriminate; injection X as <- <-; [rewrite app_nil_r; reflexivity|]. reflexivity.
    - destruct (texts l') as [t'|]; [|discriminate]. injection T as <-. rewrite (IH _ _ _ E eq_refl). rewrite app_assoc. f_equal.
      cbn [exec] in X. unfold addConst in X. destruct (size _ <? 2 ^ 32); try discriminate; injection X as <- <-. cbn. apply addAll_eq.
    - destruct (texts l') as [t'|]; [|discriminate]. injection T as <-. rewrite (IH _ _ _ E eq_refl). rewrite app_assoc. f_equal.
      cbn [exec] in X. pose proof (session_items ws p b (size p)) as SI. destruct (session false (size p) ws p b) as [q c]. destruct (size q <? 2 ^ 32); [|discriminate]. injection X as <- <-. exact SI.
    - rewrite (IH _ _ _ E T). f_equal. cbn [exec] in X. destruct (size _ <? 2 ^ 32); try discriminate; injection X as <- <-. cbn. apply app_nil_r. }
  destruct V' as (B & R & _). cbn [fst snd] in *. apply (good_read false _ _ _ false R). rewrite Q. unfold fromMark, size in *. rewrite Q, size_app in *. cbn.
  rewrite !n32_small by lia. split; [lia|]. exists (items p), []. rewrite app_nil_r. split; [reflexivity|]. split; [reflexivity|]. discriminate.
Qed.
Example sp_mark_ex : match run false [Add [1; 2] true true] (empty_pool, []) with
  | Some (p, b) => match run false [Add [3] false false; Writes [([(4, true)], true)]; Add [5] true true] (p, b) with Some (p', _) => Some (read (fromMark (size p) p') p') | None => None end
  | None => None end = Some (Ok [3; 4; 5]).
Proof. vm_compute. reflexivity. Qed.

(** C352: in a pool of characters, the parts that fromMark gives are not joined: the closing zeros are left between them *)
Theorem sp_parts_refuted : forall a b p mv, a <> [] -> b <> [] -> size p + Z.of_nat (length a + length b) + 2 < 2 ^ 32 ->
  let p1 := fst (add true a mv mv p) in let p2 := fst (add true b mv mv p1) in
  read (fromMark (size p) p2) p2 = Ok (a ++ [0] ++ b ++ [0]).
Proof.
  intros [|x a] [|y b] p mv A B S; try congruence. cbv zeta. set (a' := x :: a) in *. set (b' := y :: b) in *.
  set (p2 := fst _). assert (Q : items p2 = items p ++ a' ++ [0] ++ b' ++ [0]) by (unfold p2; cbn; rewrite <- !app_assoc; reflexivity).
  apply (good_read true _ _ _ false); [left; reflexivity|]. rewrite Q. unfold fromMark, size in *. rewrite Q, !size_app. cbn [length]. rewrite !n32_small by lia. cbn [good len off]. split; [rewrite !app_length; cbn [length]; lia|].
  exists (items p), []. rewrite app_nil_r. split; [reflexivity|]. split; [reflexivity|]. discriminate.
Qed.

(** C353: add(IIterator &) gives a reference that includes the closing zero *)
Theorem sp_iter_refuted : forall c mv p, size p + Z.of_nat (length c) + 1 < 2 ^ 32 ->
  let (p', r) := addIter true c mv p in read r p' = Ok (map fst c ++ [0]).
Proof.
  intros c mv p S. unfold addIter. cbv zeta. destruct (addAll_eq c p) as [A1 A2]. set (p1 := zero true mv (setref (addAll c p))).
  assert (Q : items p1 = items p ++ map fst c ++ [0]) by (unfold p1; rewrite zero_items; cbn; rewrite A1; unfold chars; rewrite <- app_assoc; reflexivity).
  assert (ZZ : size p1 - size p = Z.of_nat (length (map fst c ++ [0]))) by (unfold size; rewrite Q, size_app; lia).
  rewrite ZZ. apply (good_read true _ _ _ false); [left; reflexivity|]. cbn [setref items]. rewrite Q. cbn [good len off]. unfold size in *. rewrite app_length, map_length in *. cbn [length] in *. rewrite !n32_small by lia.
  split; [reflexivity|]. exists (items p), []. rewrite app_nil_r. split; [reflexivity|]. split; [reflexivity|]. discriminate.
Qed.

(** C354: while a string is being written by a WriteIterator, the references to the other strings of the pool may be invalid: the pool has
    moved, the pointer by which they are read is updated by finish() only *)
Theorem sp_write_refuted : ~ (forall l p b r s f x mv, run true l (empty_pool, []) = Some (p, b) -> In (r, s, f) b -> read r (write x mv p) = Ok s).
Proof.
  intros H. assert (X : exists p b, run true [Add [97] true true] (empty_pool, []) = Some (p, b) /\ In (mkRef 0 1, [97], true) b /\ read (mkRef 0 1) (write 98 true p) = Undef).
  { eexists. eexists. split; [vm_compute; reflexivity|]. split; [left; reflexivity|]. vm_compute. reflexivity. }
  destruct X as (p & b & E & I & U). specialize (H _ p b _ _ _ 98 true E I). congruence.
Qed.

(** C355: more than 2^32 characters are not refused: the reference to a string added then stands for the beginning of the pool *)
Theorem sp_limit_refuted : forall s mv p, s <> [] -> size p = 2 ^ 32 -> Z.of_nat (length s) < 2 ^ 32 ->
  let (p', r) := add true s mv mv p in read r p' = Ok (firstn (length s) (items p)).
Proof.
  intros [|x s] mv p N P L; [congruence|]. cbn [add]. set (s' := x :: s) in *.
  assert (LP : (length s' <= length (items p))%nat) by (unfold size in P; lia).
  apply (good_read true _ _ _ false); [left; reflexivity|]. rewrite P. replace (n32 (2 ^ 32)) with 0 by reflexivity. cbn [good len off]. rewrite n32_small by lia.
  split; [rewrite firstn_length; lia|]. exists [], (skipn (length s') (items p) ++ s' ++ [0]). split; [|split; [reflexivity|discriminate]].
  cbn [setref items zero grow app]. rewrite app_assoc, firstn_skipn. rewrite <- app_assoc. reflexivity.
Qed.
Example sp_limit_ex : exists p, size p = 2 ^ 32 /\ items p <> [].
Proof.
  assert (H : exists n, Z.of_nat n = 2 ^ 32) by (exists (Z.to_nat (2 ^ 32)); apply Z2Nat.id; lia). destruct H as (n & H).
  exists (mkPool 0 (repeat 1 n) None). unfold size. cbn [items]. rewrite repeat_length. split; [exact H|]. destruct n; [discriminate H|]. cbn. discriminate.
Qed.

Print Assumptions sp_read.
Print Assumptions sp_zero.
Print Assumptions sp_mark.
Print Assumptions sp_parts_refuted.
Print Assumptions sp_iter_refuted.
Print Assumptions sp_write_refuted.
Print Assumptions sp_limit_refuted.
