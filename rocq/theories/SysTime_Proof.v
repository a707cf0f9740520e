(** Lemmas about SysTime and Timeout. *)
From Coq Require Import ZArith Lia ZifyBool.
From Verif Require Import Common SysTime_Spec SysTime_Model.
Local Open Scope Z_scope.

Lemma i64_ok x : - 2 ^ 63 <= x < 2 ^ 63 -> i64 x = Ok x.
Proof. intros H. unfold i64. destruct (_ && _) eqn:E; [reflexivity|lia]. Qed.
Lemma normDiv v : -1000000 < v < 2000000 -> normalizeDiv v 1000000 = v / 1000000 /\ normalizeMod v 1000000 = v mod 1000000.
Proof.
  intros H. unfold normalizeDiv, normalizeMod. destruct (Z.ltb_spec v 0).
  - split.
    + assert (v / 1000000 = -1) as -> by (symmetry; apply (Z.div_unique v 1000000 (-1) (v + 1000000)); lia).
      rewrite <- (Z.opp_involutive (v - 1000000 + 1)), Z.quot_opp_l by lia. rewrite Z.quot_div_nonneg by lia.
      assert (- (v - 1000000 + 1) / 1000000 = 1) as -> by (symmetry; apply (Z.div_unique _ 1000000 1 (- v - 1)); lia). reflexivity.
    + rewrite <- (Z.opp_involutive v) at 1. rewrite Z.rem_opp_l by lia. rewrite Z.rem_small by lia. apply (Z.mod_unique v 1000000 (-1)); lia.
  - rewrite Z.quot_div_nonneg, Z.rem_mod_nonneg by lia. split; reflexivity.
Qed.
Lemma add_ok a b : normal a -> normal b -> isNil a = false -> isNil b = false -> exists c, add a b = Ok c /\ us c = us a + us b /\ 0 <= tusec c < 1000000.
Proof.
  intros (A & A') (B & B') NA NB. unfold add. rewrite NA, NB. cbn [orb]. destruct (normDiv (tusec a + tusec b)) as (-> & ->); [lia|].
  pose proof (Z.div_mod (tusec a + tusec b) 1000000 ltac:(lia)). pose proof (Z.mod_pos_bound (tusec a + tusec b) 1000000 ltac:(lia)).
  rewrite i64_ok by lia. cbn [obind]. rewrite i64_ok by lia. cbn [obind]. eexists. split; [reflexivity|]. unfold us. cbn [tsec tusec]. lia.
Qed.
Lemma sub_ok a b : normal a -> normal b -> isNil a = false -> isNil b = false -> exists c, sub a b = Ok c /\ us c = us a - us b /\ 0 <= tusec c < 1000000.
Proof.
  intros (A & A') (B & B') NA NB. unfold sub. rewrite NA, NB. cbn [orb]. destruct (normDiv (tusec a - tusec b)) as (-> & ->); [lia|].
  pose proof (Z.div_mod (tusec a - tusec b) 1000000 ltac:(lia)). pose proof (Z.mod_pos_bound (tusec a - tusec b) 1000000 ltac:(lia)).
  rewrite i64_ok by lia. cbn [obind]. rewrite i64_ok by lia. cbn [obind]. eexists. split; [reflexivity|]. unfold us. cbn [tsec tusec]. lia.
Qed.
Lemma nil_iff t : 0 <= tusec t < 1000000 -> (isNil t = true <-> -1000000 <= us t < 0).
Proof. intros H. unfold isNil, us. split; intros; lia. Qed.
Lemma u64_small x : 0 <= x < 2 ^ 64 -> u64 x = x.
Proof. intros H. apply Z.mod_small. exact H. Qed.
Lemma s64_small x : 0 <= x < 2 ^ 63 -> s64 x = x.
Proof. intros H. unfold s64. rewrite Z.mod_small by lia. destruct (x <? 2 ^ 63) eqn:E; lia. Qed.
Lemma ofParts_ok d h m s ms : 0 <= d -> 0 <= h -> 0 <= m -> 0 <= s -> 0 <= ms -> span d h m s ms < 2 ^ 63 * 1000000 ->
  us (ofParts d h m s ms) = span d h m s ms /\ 0 <= tusec (ofParts d h m s ms) < 1000000 /\ 0 <= tsec (ofParts d h m s ms) < 2 ^ 63.
Proof.
  intros D H M S MS B. unfold span in B. pose proof (Z.div_mod ms 1000 ltac:(lia)). pose proof (Z.mod_pos_bound ms 1000 ltac:(lia)).
  assert (Q : 0 <= ms / 1000) by (apply Z.div_pos; lia).
  assert (E : tsec (ofParts d h m s ms) = ((d * 24 + h) * 60 + m) * 60 + s + ms / 1000).
  { unfold ofParts. cbn [tsec]. rewrite (u64_small (d * 24)) by lia. rewrite (u64_small (d * 24 + h)) by lia. rewrite (u64_small ((d * 24 + h) * 60)) by lia.
    rewrite (u64_small ((d * 24 + h) * 60 + m)) by lia. rewrite (u64_small (((d * 24 + h) * 60 + m) * 60)) by lia. rewrite (u64_small (_ + s)) by lia. apply s64_small. lia. }
  unfold us, span. rewrite E. unfold ofParts. cbn [tusec]. lia.
Qed.
Lemma less_us a b : 0 <= tusec a < 1000000 -> 0 <= tusec b < 1000000 -> isNil a = false -> isNil b = false -> less a b = (us a <? us b).
Proof. intros A B NA NB. unfold less, us. rewrite NA, NB. cbn [orb]. lia. Qed.
Lemma quot_nn a b : 0 <= a -> 0 < b -> Z.quot a b = a / b.
Proof. intros. apply Z.quot_div_nonneg; lia. Qed.
Lemma rem_nn a b : 0 <= a -> 0 < b -> Z.rem a b = a mod b.
Proof. intros. apply Z.rem_mod_nonneg; lia. Qed.
