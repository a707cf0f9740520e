(** The worker alone empties the queue. *)
From Coq Require Import ZArith.
From Verif Require Import Common MsgQueue_Spec MsgQueue_Model MsgQueue_Proof.
Open Scope nat_scope.

Fixpoint works (n : nat) (s : st) : st := match n with O => s | S k => works k (wstep s) end.
Definition reach (s : st) (P : st -> Prop) : Prop := exists n, P (works n s).
Lemma works_add n k s : works (n + k) s = works k (works n s).
Proof. revert s. induction n as [|n IH]; intros s; [reflexivity|]. cbn. apply IH. Qed.
Lemma reach_here s (P : st -> Prop) : P s -> reach s P.
Proof. exists 0. exact H. Qed.
Lemma reach_step s P : reach (wstep s) P -> reach s P.
Proof. intros (n & H). exists (S n). exact H. Qed.
Lemma reach_then s (P Q : st -> Prop) : reach s P -> (forall s', P s' -> reach s' Q) -> reach s Q.
Proof.
  intros (n & H) F. destruct (F _ H) as (k & K). exists (n + k). rewrite works_add. exact K.
Qed.

Definition tot (s : st) : nat := length (cur s) + length (wl s) + length (new s).
Lemma sameh_refl a : sameh a a = true.
Proof. destruct a; [apply Nat.eqb_refl|reflexivity]. Qed.
Lemma wl_prep m n c q f k h : wl (mkSt m n c q f (after_prep k) h) = [].
Proof. destruct k; reflexivity. Qed.

(** prepareQueue ends *)
Definition Prep (k : pk) (s s' : st) : Prop := pc s' = after_prep k /\ tot s' = tot s.
Lemma l_p3 k l s : pc s = P3 k l -> reach s (fun s' => Prep k s s' /\ new s' = new s).
Proof.
  intros P. apply reach_step, reach_here. unfold wstep. rewrite P. unfold Prep, tot. rewrite wl_prep. cbn [pc cur new]. unfold wl. rewrite P.
  rewrite app_length. cbn [length]. repeat split. lia.
Qed.
Lemma l_p2 k l s : pc s = P2 k l -> reach s (fun s' => Prep k s s' /\ new s' = new s).
Proof.
  intros P. apply reach_step. unfold wstep. rewrite P. destruct (cur s) eqn:C.
  - apply reach_here. unfold Prep, tot. rewrite wl_prep. cbn [pc cur new]. unfold wl. rewrite P, C. cbn [length]. repeat split. lia.
  - eapply reach_then; [apply (l_p3 k l); reflexivity|]. intros s' [[A B] D]. apply reach_here. split; [|exact D]. split; [exact A|].
    rewrite B. unfold tot, at_, wl. cbn [cur pc new]. rewrite P. reflexivity.
Qed.
Lemma l_p1 k p s : pc s = P1 k p -> sameh (hd_error (new s)) p = true -> reach s (fun s' => Prep k s s' /\ new s' = []).
Proof.
  intros P S. apply reach_step. unfold wstep. rewrite P, S.
  eapply reach_then; [apply (l_p2 k (rev (new s))); reflexivity|]. intros s' [[A B] D]. apply reach_here. split; [|exact D]. split; [exact A|].
  rewrite B. unfold tot, wl. cbn [cur pc new length]. rewrite P, rev_length. cbn [length]. lia.
Qed.
Lemma l_p0 k s : pc s = P0 k -> reach s (fun s' => Prep k s s' /\ new s' = []).
Proof.
  intros P. apply reach_step. unfold wstep. rewrite P.
  eapply reach_then; [apply (l_p1 k (hd_error (new s))); [reflexivity|apply sameh_refl]|]. intros s' [[A B] D]. apply reach_here. split; [|exact D]. split; [exact A|].
  rewrite B. unfold tot, at_, wl. cbn [cur pc new length]. rewrite P. reflexivity.
Qed.
Lemma l_prep k s : (pc s = P0 k \/ (exists p, pc s = P1 k p) \/ (exists l, pc s = P2 k l) \/ (exists l, pc s = P3 k l)) -> reach s (Prep k s).
Proof.
  intros [P|[(p & P)|[(l & P)|(l & P)]]].
  - eapply reach_then; [apply (l_p0 k s P)|]. intros s' [A _]. apply reach_here. exact A.
  - destruct (sameh (hd_error (new s)) p) eqn:S.
    + eapply reach_then; [apply (l_p1 k p s P S)|]. intros s' [A _]. apply reach_here. exact A.
    + apply reach_step. unfold wstep. rewrite P, S. eapply reach_then; [apply (l_p0 k); reflexivity|]. intros s' [[A B] _]. apply reach_here.
      split; [exact A|]. rewrite B. unfold tot, at_, wl. cbn [cur pc new length]. rewrite P. reflexivity.
  - eapply reach_then; [apply (l_p2 k l s P)|]. intros s' [A _]. apply reach_here. exact A.
  - eapply reach_then; [apply (l_p3 k l s P)|]. intros s' [A _]. apply reach_here. exact A.
Qed.

(** getNextMsg ends *)
Lemma l_g1 c m r s : pc s = G1 c -> cur s = m :: r -> reach s (fun s' => pc s' = G3 c m /\ tot s' + 1 = tot s).
Proof.
  intros P C. apply reach_step. unfold wstep. rewrite P, C. apply reach_step. unfold wstep. cbn [pc at_ cur]. rewrite C. cbn [hd_error]. rewrite sameh_refl.
  apply reach_here. split; [reflexivity|]. unfold tot, wl. cbn [pc cur new tl]. rewrite P, C. cbn [length at_ new]. lia.
Qed.
Definition Got (c : ctx) (s s' : st) : Prop := (exists m, pc s' = G3 c m /\ tot s' + 1 = tot s) \/ (pc s' = G1 c /\ tot s = 0 /\ cur s' = [] /\ tot s' = 0).
Lemma l_g0 c s : pc s = G0 c -> reach s (Got c s).
Proof.
  intros P. apply reach_step. unfold wstep. rewrite P. destruct (cur s) as [|m r] eqn:C.
  - eapply reach_then; [apply (l_p0 (KGet c)); reflexivity|]. intros s1 [[A B] D]. cbn [after_prep] in A.
    assert (T : tot (at_ s (P0 (KGet c)) (hist s)) = tot s) by (unfold tot, wl; cbn [pc at_ cur new]; rewrite P; reflexivity). rewrite T in B.
    destruct (cur s1) as [|m r] eqn:C1.
    + apply reach_here. right. assert (tot s1 = 0) by (unfold tot, wl; rewrite A, C1, D; reflexivity). repeat split; auto; lia.
    + eapply reach_then; [apply (l_g1 c m r s1 A C1)|]. intros s2 [A2 B2]. apply reach_here. left. exists m. split; [exact A2|lia].
  - eapply reach_then; [apply (l_g1 c m r); [reflexivity|exact C]|]. intros s2 [A2 B2]. apply reach_here. left. exists m. split; [exact A2|].
    rewrite B2. unfold tot, wl. cbn [pc at_ cur new]. rewrite P. reflexivity.
Qed.
(** wtFlush ends *)
Lemma l_flush : forall n f o s, tot s < n -> pc s = G0 (Fl f o) -> reach s (fun s' => pc s' = Fin f /\ tot s' = 0).
Proof.
  induction n as [|n IH]; intros f o s L P; [lia|].
  eapply reach_then; [apply (l_g0 _ s P)|]. intros s1 [(m & A & B)|(A & B & C & D)].
  - apply reach_step. unfold wstep. rewrite A. apply (IH f (Some m)); [|reflexivity].
    unfold tot, wl in *. cbn [pc cur new]. rewrite A in B. lia.
  - apply reach_step. unfold wstep. rewrite A, C. apply reach_here. split; [reflexivity|]. unfold tot, wl in *. cbn [pc at_ cur new]. rewrite A in D. exact D.
Qed.
(** run ends *)
Definition Rest (s s' : st) : Prop := pc s' = Idle /\ tot s' <= tot s.
Lemma l_fin m s : pc s = Fin m -> reach s (Rest s).
Proof.
  intros P. apply reach_step, reach_here. unfold wstep. rewrite P. split; [reflexivity|]. unfold tot, wl. cbn [pc at_ cur new]. rewrite P. lia.
Qed.
Lemma rest_at s ms nw cu q f p h s' : Rest (mkSt ms nw cu q f p h) s' -> wl (mkSt ms nw cu q f p h) = [] ->
  length cu + length nw <= tot s -> Rest s s'.
Proof. intros [A B] W L. split; [exact A|]. unfold tot at 2 in B. rewrite W in B. cbn [cur new length] in B. lia. Qed.
Lemma l_c3 m t s : pc s = C3 m t -> reach s (Rest s).
Proof.
  intros P. apply reach_step. unfold wstep. rewrite P. eapply reach_then; [apply (l_fin m); reflexivity|]. intros s' R. apply reach_here. eapply rest_at; [exact R|reflexivity|]. unfold tot. lia.
Qed.
Lemma rem_le t l : length (rem t l) <= length l.
Proof. unfold rem. induction l as [|a l IH]; cbn; [lia|]. destruct (negb (a =? t)); cbn; lia. Qed.
Lemma l_c1 m t s : pc s = C1 m t -> reach s (Rest s).
Proof.
  intros P. apply reach_step. unfold wstep. rewrite P.
  assert (FIN : reach (at_ s (Fin m) (hist s)) (Rest s)).
  { eapply reach_then; [apply (l_fin m); reflexivity|]. intros s' R. apply reach_here. eapply rest_at; [exact R|reflexivity|]. unfold tot. lia. }
  destruct (cur s) as [|p r] eqn:C; [exact FIN|]. destruct (p =? t) eqn:Q.
  - apply reach_step. unfold wstep. cbn [pc at_ cur]. rewrite C. cbn [hd_error sameh]. rewrite Q. cbn [tl].
    eapply reach_then; [apply (l_c3 m t); reflexivity|]. intros s' R. apply reach_here. eapply rest_at; [exact R|reflexivity|]. unfold tot. rewrite C. cbn. lia.
  - destruct (existsb (Nat.eqb t) r); [|exact FIN].
    eapply reach_then; [apply (l_c3 m t); reflexivity|]. intros s' R. apply reach_here. eapply rest_at; [exact R|reflexivity|]. unfold tot. rewrite C, remove_rem.
    pose proof (rem_le t r). cbn [length]. lia.
Qed.
Lemma l_g0fl f o s : pc s = G0 (Fl f o) -> reach s (Rest s).
Proof.
  intros P. eapply reach_then; [apply (l_flush (S (tot s)) f o s); [lia|exact P]|]. intros s1 [A B].
  eapply reach_then; [apply (l_fin f s1 A)|]. intros s2 [C D]. apply reach_here. split; [exact C|lia].
Qed.
Lemma l_kfl f s : (pc s = P0 (KFl f) \/ (exists p, pc s = P1 (KFl f) p) \/ (exists l, pc s = P2 (KFl f) l) \/ (exists l, pc s = P3 (KFl f) l)) -> reach s (Rest s).
Proof.
  intros P. eapply reach_then; [apply (l_prep (KFl f) s P)|]. intros s1 [A B]. cbn in A.
  eapply reach_then; [apply (l_g0fl f None s1 A)|]. intros s2 [C D]. apply reach_here. split; [exact C|lia].
Qed.
Lemma l_kcan f t s : (pc s = P0 (KCan f t) \/ (exists p, pc s = P1 (KCan f t) p) \/ (exists l, pc s = P2 (KCan f t) l) \/ (exists l, pc s = P3 (KCan f t) l)) -> reach s (Rest s).
Proof.
  intros P. eapply reach_then; [apply (l_prep (KCan f t) s P)|]. intros s1 [A B]. cbn in A.
  eapply reach_then; [apply (l_c1 f t s1 A)|]. intros s2 [C D]. apply reach_here. split; [exact C|lia].
Qed.
Lemma l_run m s : pc s = Run m -> reach s (Rest s).
Proof.
  intros P. apply reach_step. unfold wstep. rewrite P.
  assert (T : length (cur s) + length (new s) <= tot s) by (unfold tot; lia).
  destruct (option_map kd (nth_error (msgs s) m)) as [[| |t|]|].
  - eapply reach_then; [apply (l_fin m); reflexivity|]. intros s' R. apply reach_here. eapply rest_at; [exact R|reflexivity|exact T].
  - eapply reach_then; [apply (l_kfl m); left; reflexivity|]. intros s' R. apply reach_here. eapply rest_at; [exact R|reflexivity|exact T].
  - eapply reach_then; [apply (l_kcan m t); left; reflexivity|]. intros s' R. apply reach_here. eapply rest_at; [exact R|reflexivity|exact T].
  - eapply reach_then; [apply (l_kfl m); left; reflexivity|]. intros s' R. apply reach_here. eapply rest_at; [exact R|reflexivity|exact T].
  - eapply reach_then; [apply (l_fin m); reflexivity|]. intros s' R. apply reach_here. eapply rest_at; [exact R|reflexivity|exact T].
Qed.
Lemma l_g3 c m s : pc s = G3 c m -> reach s (Rest s).
Proof.
  intros P. apply reach_step. unfold wstep. rewrite P. assert (T : length (cur s) + length (new s) <= tot s) by (unfold tot; lia). destruct c as [|f o].
  - eapply reach_then; [apply (l_run m); reflexivity|]. intros s' R. apply reach_here. eapply rest_at; [exact R|reflexivity|exact T].
  - eapply reach_then; [apply (l_g0fl f (Some m)); reflexivity|]. intros s' R. apply reach_here. eapply rest_at; [exact R|reflexivity|exact T].
Qed.
Lemma l_g1_ c s : pc s = G1 c -> reach s (Rest s).
Proof.
  intros P. destruct (cur s) as [|m r] eqn:C.
  - apply reach_step. unfold wstep. rewrite P, C. assert (T : length (cur s) + length (new s) <= tot s) by (unfold tot; lia). destruct c as [|f o].
    + apply reach_here. split; [reflexivity|]. unfold tot, wl. cbn [pc at_ cur new]. rewrite P. lia.
    + eapply reach_then; [apply (l_fin f); reflexivity|]. intros s' R. apply reach_here. eapply rest_at; [exact R|reflexivity|exact T].
  - eapply reach_then; [apply (l_g1 c m r s P C)|]. intros s1 [A B]. eapply reach_then; [apply (l_g3 c m s1 A)|]. intros s2 [D E]. apply reach_here. split; [exact D|lia].
Qed.
Lemma l_g0_ c s : pc s = G0 c -> reach s (Rest s).
Proof.
  intros P. eapply reach_then; [apply (l_g0 c s P)|]. intros s1 [(m & A & B)|(A & B & _ & D)].
  - eapply reach_then; [apply (l_g3 c m s1 A)|]. intros s2 [E F]. apply reach_here. split; [exact E|lia].
  - eapply reach_then; [apply (l_g1_ c s1 A)|]. intros s2 [E F]. apply reach_here. split; [exact E|lia].
Qed.
Lemma l_any s : reach s (Rest s).
Proof.
  destruct (pc s) as [|c|c|c m|c m|k|k p|k l|k l|m t|m t|m t|m|m] eqn:P.
  - apply reach_here. split; [exact P|lia].
  - apply (l_g0_ c s P).
  - apply (l_g1_ c s P).
  - apply reach_step. unfold wstep. rewrite P. destruct (sameh (hd_error (cur s)) (Some m)).
    + eapply reach_then; [apply (l_g3 c m); reflexivity|]. intros s' R. apply reach_here. eapply rest_at; [exact R|reflexivity|].
      unfold tot. destruct (cur s); cbn; lia.
    + destruct (cur s) as [|m' r] eqn:C.
      * eapply reach_then; [apply (l_g1_ c); reflexivity|]. intros s' R. apply reach_here. eapply rest_at; [exact R|reflexivity|unfold tot; lia].
      * apply reach_step. unfold wstep. cbn [pc at_ cur]. rewrite C. cbn [hd_error]. rewrite sameh_refl.
        eapply reach_then; [apply (l_g3 c m'); reflexivity|]. intros s' R. apply reach_here. eapply rest_at; [exact R|reflexivity|].
        unfold tot. rewrite C. cbn. lia.
  - apply (l_g3 c m s P).
  - destruct k as [c|f|f t].
    + eapply reach_then; [apply (l_prep (KGet c) s); auto|]. intros s1 [A B]. eapply reach_then; [apply (l_g1_ c s1 A)|]. intros s2 [E F]. apply reach_here. split; [exact E|lia].
    + apply (l_kfl f); auto.
    + apply (l_kcan f t); auto.
  - destruct k as [c|f|f t].
    + eapply reach_then; [apply (l_prep (KGet c) s); eauto|]. intros s1 [A B]. eapply reach_then; [apply (l_g1_ c s1 A)|]. intros s2 [E F]. apply reach_here. split; [exact E|lia].
    + apply (l_kfl f); eauto.
    + apply (l_kcan f t); eauto.
  - destruct k as [c|f|f t].
    + eapply reach_then; [apply (l_prep (KGet c) s); eauto|]. intros s1 [A B]. eapply reach_then; [apply (l_g1_ c s1 A)|]. intros s2 [E F]. apply reach_here. split; [exact E|lia].
    + apply (l_kfl f); eauto.
    + apply (l_kcan f t); eauto.
  - destruct k as [c|f|f t].
    + eapply reach_then; [apply (l_prep (KGet c) s); eauto|]. intros s1 [A B]. eapply reach_then; [apply (l_g1_ c s1 A)|]. intros s2 [E F]. apply reach_here. split; [exact E|lia].
    + apply (l_kfl f); eauto.
    + apply (l_kcan f t); eauto.
  - apply (l_c1 m t s P).
  - apply reach_step. unfold wstep. rewrite P. destruct (sameh (hd_error (cur s)) (Some t)).
    + eapply reach_then; [apply (l_c3 m t); reflexivity|]. intros s' R. apply reach_here. eapply rest_at; [exact R|reflexivity|].
      unfold tot. destruct (cur s); cbn; lia.
    + eapply reach_then; [apply (l_c1 m t); reflexivity|]. intros s' R. apply reach_here. eapply rest_at; [exact R|reflexivity|unfold tot; lia].
  - apply (l_c3 m t s P).
  - apply (l_run m s P).
  - apply (l_fin m s P).
Qed.
Lemma l_drain : forall n s, tot s <= n -> pc s = Idle -> reach s (fun s' => pc s' = Idle /\ tot s' = 0).
Proof.
  induction n as [|n IH]; intros s L P; [apply reach_here; split; [exact P|lia]|].
  destruct (Nat.eq_dec (tot s) 0) as [Z|Z]; [apply reach_here; auto|].
  apply reach_step. unfold wstep. rewrite P.
  assert (T : tot (at_ s (G0 Pump) (hist s)) = tot s) by (unfold tot, wl; cbn [pc at_ cur new]; rewrite P; reflexivity).
  eapply reach_then; [apply (l_g0 Pump); reflexivity|]. intros s1 [(m & A & B)|(A & B & _)]; [|lia].
  eapply reach_then; [apply (l_g3 Pump m s1 A)|]. intros s2 [C D]. apply IH; [lia|exact C].
Qed.
Lemma drain s : reach s (fun s' => pc s' = Idle /\ cur s' = [] /\ new s' = []).
Proof.
  eapply reach_then; [apply l_any|]. intros s1 [A B]. eapply reach_then; [apply (l_drain (tot s1) s1); auto|]. intros s2 [C D].
  apply reach_here. unfold tot in D. repeat split; auto; apply length_zero_iff_nil; lia.
Qed.
Lemma works_run n : forall s, run (repeat Work n) s = Some (works n s).
Proof. induction n as [|n IH]; intros s; [reflexivity|]. cbn. apply IH. Qed.
