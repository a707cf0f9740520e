(** Proofs about the old scheduler. *)
From Coq Require Import ZArith Permutation Sorted.
From Verif Require Import Common OldSched_Spec OldSched_Model.
Open Scope Z_scope.

Lemma rel_near t c : - 2 ^ 63 <= t - c < 2 ^ 63 -> rel t c = t - c.
Proof.
  intros H. unfold rel. replace ((t mod 2 ^ 64 - c mod 2 ^ 64) mod 2 ^ 64) with ((t - c) mod 2 ^ 64) by (rewrite Zminus_mod; reflexivity).
  destruct (Z_lt_le_dec (t - c) 0) as [L|L].
  - assert ((t - c) mod 2 ^ 64 = t - c + 2 ^ 64) as ->.
    { rewrite <- (Z.mod_small (t - c + 2 ^ 64) (2 ^ 64)) by lia. replace (t - c + 2 ^ 64) with (t - c + 1 * 2 ^ 64) by lia. rewrite Z_mod_plus_full. reflexivity. }
    destruct (t - c + 2 ^ 64 <? 2 ^ 63) eqn:E; lia.
  - rewrite Z.mod_small by lia. destruct (t - c <? 2 ^ 63) eqn:E; lia.
Qed.

(** * The merge sort *)
Lemma merge_nil_l c b : merge c [] b = b.
Proof. destruct b; reflexivity. Qed.
Lemma merge_nil_r c a : merge c a [] = a.
Proof. destruct a; reflexivity. Qed.
Lemma merge_cons c x a y b : merge c (x :: a) (y :: b) = if relm c x <? relm c y then x :: merge c a (y :: b) else y :: merge c (x :: a) b.
Proof. reflexivity. Qed.
(** induction along a merge *)
Lemma merge_ind (c : Z) (P : list tmsg -> list tmsg -> list tmsg -> Prop) :
  (forall b, P [] b b) -> (forall a, P a [] a) ->
  (forall x a y b l, relm c x < relm c y -> P a (y :: b) l -> P (x :: a) (y :: b) (x :: l)) ->
  (forall x a y b l, relm c y <= relm c x -> P (x :: a) b l -> P (x :: a) (y :: b) (y :: l)) ->
  forall a b, P a b (merge c a b).
Proof.
  intros H1 H2 H3 H4. induction a as [|x a IHa]; intros b; [rewrite merge_nil_l; apply H1|].
  induction b as [|y b IHb]; [rewrite merge_nil_r; apply H2|]. rewrite merge_cons. destruct (relm c x <? relm c y) eqn:E.
  - apply H3; [lia|]. apply IHa.
  - apply H4; [lia|]. exact IHb.
Qed.
Lemma merge_perm c a b : Permutation (merge c a b) (a ++ b).
Proof.
  apply (merge_ind c (fun a b l => Permutation l (a ++ b))).
  - intros. reflexivity.
  - intros. rewrite app_nil_r. reflexivity.
  - intros x a0 y b0 l _ P. cbn. constructor. exact P.
  - intros x a0 y b0 l _ P. rewrite P. apply Permutation_middle.
Qed.
(** merging with respect to a relation that the comparison decides *)
Lemma merge_sorted (R : tmsg -> tmsg -> Prop) c : (forall x y z, R x y -> R y z -> R x z) -> forall a b,
  (forall x y, In x a -> In y b -> relm c x < relm c y -> R x y) -> (forall x y, In x a -> In y b -> relm c y <= relm c x -> R y x) ->
  StronglySorted R a -> StronglySorted R b -> StronglySorted R (merge c a b).
Proof.
  intros T. induction a as [|x a IHa]; intros b H1 H2 SA SB; [rewrite merge_nil_l; exact SB|].
  induction b as [|y b IHb]; [rewrite merge_nil_r; exact SA|]. rewrite merge_cons.
  apply StronglySorted_inv in SA as SA'. apply StronglySorted_inv in SB as SB'. destruct SA' as [SA1 FA], SB' as [SB1 FB].
  rewrite Forall_forall in FA, FB. destruct (relm c x <? relm c y) eqn:E.
  - assert (Rxy : R x y) by (apply H1; [left; reflexivity|left; reflexivity|lia]). constructor.
    + apply IHa; auto; intros; [apply H1|apply H2]; auto; right; assumption.
    + apply Forall_forall. intros z I. apply (Permutation_in _ (merge_perm c a (y :: b))) in I. apply in_app_or in I.
      destruct I as [I|[<-|I]]; [apply FA; exact I|exact Rxy|]. apply (T _ y); auto.
  - assert (Ryx : R y x) by (apply H2; [left; reflexivity|left; reflexivity|lia]). constructor.
    + apply IHb; auto; intros; [apply H1|apply H2]; auto; right; assumption.
    + apply Forall_forall. intros z I. apply (Permutation_in _ (merge_perm c (x :: a) b)) in I. apply in_app_or in I.
      destruct I as [[<-|I]|I]; [exact Ryx| |apply FB; exact I]. apply (T _ x); auto.
Qed.

Lemma pass_length c : forall n l, (length l <= n)%nat -> (2 * length (pass c l) <= length l + 1)%nat.
Proof.
  induction n as [|n IH]; intros l L; [destruct l; cbn in *; lia|]. destruct l as [|a [|b t]]; cbn [pass length] in *; [lia|lia|].
  specialize (IH t ltac:(lia)). lia.
Qed.
Lemma pass_perm c : forall n l, (length l <= n)%nat -> Permutation (concat (pass c l)) (concat l).
Proof.
  induction n as [|n IH]; intros l L; [destruct l; cbn in *; [reflexivity|lia]|]. destruct l as [|a [|b t]]; cbn [pass concat length] in *; [reflexivity|reflexivity|].
  rewrite (IH t) by lia. rewrite (merge_perm c a b), app_assoc. reflexivity.
Qed.
Definition desc (A B : list tmsg) : Prop := forall x y, In x A -> In y B -> (tid y < tid x)%nat.
(** slots: each sorted, and later slots have older messages *)
Definition slots (R : tmsg -> tmsg -> Prop) (l : list (list tmsg)) : Prop := Forall (StronglySorted R) l /\ StronglySorted desc l.
Lemma passes_ok (R : tmsg -> tmsg -> Prop) c (D : tmsg -> Prop) : (forall x y z, R x y -> R y z -> R x z) ->
  (forall x y, D x -> D y -> relm c x < relm c y -> R x y) ->
  (forall x y, D x -> D y -> relm c y <= relm c x -> (tid y < tid x)%nat -> R y x) ->
  forall fuel l, Forall D (concat l) -> slots R l -> (length l <= S fuel)%nat ->
  exists r, passes fuel c l = Ok r /\ Permutation r (concat l) /\ StronglySorted R r.
Proof.
  intros T H1 H2.
  assert (P : forall n l, (length l <= n)%nat -> Forall D (concat l) -> slots R l -> slots R (pass c l) /\
     (forall A, Forall (desc A) l -> Forall (desc A) (pass c l))).
  { induction n as [|n IH]; intros l L FD [F S]; [destruct l; [|cbn in L; lia]; cbn; repeat constructor|].
    destruct l as [|a [|b t]]; cbn [pass].
    - split; [split; auto|auto].
    - split; [split; auto|auto].
    - cbn [concat length] in *. apply Forall_app in FD as [Da FD]. apply Forall_app in FD as [Db Dt].
      apply Forall_cons_iff in F as [Fa F]. apply Forall_cons_iff in F as [Fb F].
      apply StronglySorted_inv in S as [S Sa]. apply StronglySorted_inv in S as [S Sb]. apply Forall_cons_iff in Sa as [Sab Sa].
      destruct (IH t ltac:(lia) Dt (conj F S)) as [[F' S'] Q]. rewrite Forall_forall in Da, Db. split.
      + split.
        * constructor; [|exact F']. apply (merge_sorted R c T); auto.
        * constructor; [exact S'|]. assert (Z : Forall (desc (a ++ b)) t).
          { rewrite Forall_forall in Sa, Sb |- *. intros B I x y Ix Iy. apply in_app_or in Ix. destruct Ix as [Ix|Ix]; [apply (Sa B I x y Ix Iy)|apply (Sb B I x y Ix Iy)]. }
          apply Q in Z. rewrite Forall_forall in Z |- *. intros B I x y Ix Iy. apply (Z B I x y); [|exact Iy]. apply (Permutation_in _ (merge_perm c a b)). exact Ix.
      + intros A FA. apply Forall_cons_iff in FA as [FA1 FA]. apply Forall_cons_iff in FA as [FA2 FA]. constructor; [|apply Q; exact FA].
        intros x y Ix Iy. apply (Permutation_in _ (merge_perm c a b)) in Iy. apply in_app_or in Iy. destruct Iy as [Iy|Iy]; [apply (FA1 x y Ix Iy)|apply (FA2 x y Ix Iy)]. }
  induction fuel as [|f IH]; intros l FD S L.
  - destruct l as [|a [|b t]]; cbn in *; [|rewrite app_nil_r|lia].
    + exists []. split; [reflexivity|]. split; constructor.
    + exists a. split; [reflexivity|]. split; [reflexivity|]. destruct S as [F _]. inversion F; assumption.
  - destruct l as [|a [|b t]]; cbn [passes].
    + exists []. split; [reflexivity|]. split; constructor.
    + exists a. split; [reflexivity|]. split; [cbn; rewrite app_nil_r; reflexivity|]. destruct S as [F _]. inversion F; assumption.
    + pose proof (pass_perm c _ (a :: b :: t) (le_n _)) as PP. pose proof (pass_length c _ (a :: b :: t) (le_n _)) as PL.
      destruct (IH (pass c (a :: b :: t))) as (r & E & Pr & Sr).
      * apply Forall_forall. intros x I. apply (Permutation_in _ PP) in I. rewrite Forall_forall in FD. auto.
      * apply (P _ _ (le_n _) FD S).
      * cbn [length] in *. lia.
      * exists r. split; [exact E|]. split; [rewrite Pr; exact PP|exact Sr].
Qed.
Lemma concat_sing (l : list tmsg) : concat (map (fun m => [m]) l) = l.
Proof. induction l as [|a l IH]; [reflexivity|]. cbn. f_equal. exact IH. Qed.
Definition newer (a b : tmsg) : Prop := (tid b < tid a)%nat.
Lemma sortList_ok (R : tmsg -> tmsg -> Prop) c l : (forall x y z, R x y -> R y z -> R x z) ->
  (forall x y, In x l -> In y l -> relm c x < relm c y -> R x y) ->
  (forall x y, In x l -> In y l -> relm c y <= relm c x -> (tid y < tid x)%nat -> R y x) -> StronglySorted newer l ->
  exists r, sortList c l = Ok r /\ Permutation r l /\ StronglySorted R r.
Proof.
  intros T H1 H2 S. unfold sortList. destruct (passes_ok R c (fun m => In m l) T H1 H2 (length l) (map (fun m => [m]) l)) as (r & E & P & Q).
  - rewrite concat_sing. apply Forall_forall. auto.
  - split.
    + apply Forall_forall. intros A I. apply in_map_iff in I. destruct I as (x & <- & _). repeat constructor.
    + clear - S. induction S as [|a l S IH F]; cbn; constructor; [exact IH|]. apply Forall_forall. intros B I. apply in_map_iff in I. destruct I as (y & <- & J).
      rewrite Forall_forall in F. intros u v [<-|[]] [<-|[]]. apply F. exact J.
  - rewrite map_length. lia.
  - exists r. rewrite concat_sing in P. auto.
Qed.

(** * The invariant *)
Definition kle (n : Z) (a b : tmsg) : Prop := delay n a <= delay n b.
Lemma kle_trans n x y z : kle n x y -> kle n y z -> kle n x z.
Proof. unfold kle. lia. Qed.
Lemma kle_later n d a b : 0 <= d -> kle n a b -> kle (n + d) a b.
Proof. unfold kle, delay. destruct (due a), (due b); lia. Qed.
Lemma sorted_impl (R Q : tmsg -> tmsg -> Prop) l : (forall x y, R x y -> Q x y) -> StronglySorted R l -> StronglySorted Q l.
Proof. intros H S. induction S as [|a l S IH F]; constructor; auto. eapply Forall_impl; [|exact F]. auto. Qed.
Lemma sorted_later n n' l : n <= n' -> StronglySorted (kle n) l -> StronglySorted (kle n') l.
Proof. intros L. replace n' with (n + (n' - n)) by lia. apply sorted_impl. intros x y. apply kle_later. lia. Qed.

Record Inv (s : st) : Prop := {
  j_perm : Permutation (map (fun p => tid (fst p)) (ran s) ++ map tid (cur s ++ held s ++ new s)) (seq 0 (nid s));
  j_new : StronglySorted newer (new s);
  j_cur : StronglySorted (kle (now s)) (cur s);
  j_pc : match pc s with
         | S1 _ c => c <= now s /\ StronglySorted (kle c) (cur s)
         | S2 _ c l => c <= now s /\ StronglySorted (kle c) (cur s) /\ StronglySorted (kle c) l
         | S3 _ l => StronglySorted (kle (now s)) l /\ Forall (fun m => due m = None) (cur s)
         | S5 => exists m r, cur s = m :: r /\ delay (now s) m = 0
         | _ => True
         end;
  j_mark : (mark s <= nid s)%nat /\ match pc s with Idle | S0 _ | S1 _ _ => True | _ => forall m, In m (new s) -> (mark s <= tid m)%nat end;
  j_ran : forall m t T, In (m, t) (ran s) -> due m = Some T -> T <= t;
}.
Lemma waiting_lt s m : Inv s -> In m (cur s ++ held s ++ new s) -> (tid m < nid s)%nat.
Proof.
  intros V I. assert (J : In (tid m) (seq 0 (nid s))).
  { apply (Permutation_in _ (j_perm _ V)). apply in_or_app. right. apply in_map. exact I. }
  apply in_seq in J. lia.
Qed.
Lemma delay_relm c m : (forall t, due m = Some t -> - 2 ^ 63 <= t - c < 2 ^ 63) -> delay c m = Z.max 0 (relm c m).
Proof. intros H. unfold delay, relm. destruct (due m) as [t|]; [|lia]. rewrite rel_near by (apply H; reflexivity). lia. Qed.
Lemma near_clock s m c : near s -> clock s = c -> c <= now s -> In m (cur s ++ held s ++ new s) -> forall t, due m = Some t -> - 2 ^ 63 <= t - c < 2 ^ 63.
Proof. intros N C L I t D. destruct (N m t I D). subst c. lia. Qed.

Lemma wait_ok n l : StronglySorted (kle n) l -> (forall m t, In m l -> due m = Some t -> - 2 ^ 63 <= t - n < 2 ^ 63) -> sleep_ok n l (waitTime n l).
Proof.
  intros S N. destruct l as [|m l]; [reflexivity|].
  assert (E : waitTime n (m :: l) = Some (delay n m)).
  { unfold waitTime, delay. destruct (due m) as [t|] eqn:D; [|reflexivity]. cbv zeta. rewrite rel_near by (apply (N m t); [left; reflexivity|exact D]). f_equal. destruct (t - n <? 0) eqn:Q; lia. }
  rewrite E. cbn. apply StronglySorted_inv in S as [_ F]. rewrite Forall_forall in F. split.
  - intros x [<-|I]; [lia|]. apply F. exact I.
  - exists m. auto.
Qed.

Lemma step_ok a s s' : Inv s -> near s -> step a s = Some s' -> Inv s'.
Proof.
  intros V N E. pose proof (waiting_lt s) as WLT. destruct V as [JP JN JC JK JM JR]. destruct a as [t| |d|].
  - cbn in E. injection E as <-. constructor; cbn [new cur now pc nid mark ran]; auto.
    + change (held (mkSt (mkT (nid s) t :: new s) (cur s) (now s) (pc s) (S (nid s)) (mark s) (ran s))) with (held s).
      rewrite seq_S. cbn [Nat.add]. rewrite <- JP. rewrite !map_app. cbn [map tid]. rewrite !app_assoc. rewrite <- Permutation_middle.
      rewrite <- Permutation_cons_append. reflexivity.
    + constructor; [exact JN|]. apply Forall_forall. intros m I. unfold newer. cbn. apply WLT; [constructor; auto|]. apply in_or_app. right. apply in_or_app. auto.
    + destruct JM as [J1 J2]. split; [lia|]. destruct (pc s); auto; intros m [<-|I]; cbn; auto.
  - cbn in E. injection E as <-.
    assert (K0 : forall n m, kle n (mkT (nid s) None) m) by (intros n m; unfold kle, delay; cbn; destruct (due m); lia).
    constructor; cbn [new cur now pc nid mark ran]; auto.
    + change (held (mkSt (new s) (mkT (nid s) None :: cur s) (now s) (pc s) (S (nid s)) (mark s) (ran s))) with (held s).
      rewrite seq_S. cbn [Nat.add]. rewrite <- JP. cbn [app map tid]. rewrite <- Permutation_middle. rewrite <- Permutation_cons_append. reflexivity.
    + constructor; [exact JC|]. apply Forall_forall. intros m _. apply K0.
    + destruct (pc s); auto.
      * split; [apply JK|]. constructor; [apply JK|]. apply Forall_forall. intros m _. apply K0.
      * split; [apply JK|]. split; [|apply JK]. constructor; [apply JK|]. apply Forall_forall. intros m _. apply K0.
      * split; [apply JK|]. constructor; [reflexivity|apply JK].
      * exists (mkT (nid s) None), (cur s). auto.
    + destruct JM as [J1 J2]. split; [lia|exact J2].
  - cbn in E. injection E as <-. constructor; cbn [new cur now pc nid mark ran]; auto.
    + apply (sorted_later (now s)); [lia|exact JC].
    + destruct (pc s); auto.
      * split; [lia|apply JK].
      * split; [lia|apply JK].
      * split; [|apply JK]. apply (sorted_later (now s)); [lia|apply JK].
      * destruct JK as (m & r & E & D). exists m, r. split; [exact E|]. unfold delay in *. destruct (due m); lia.
  - cbn in E. unfold wstep in E. unfold held in *. destruct (pc s) as [|k|k c|k c l|k l| | |] eqn:P.
    + injection E as <-. constructor; cbn [new cur now pc nid mark ran held]; auto.
    + injection E as <-. constructor; cbn [goto new cur now pc nid mark ran held]; auto. split; [lia|exact JC].
    + destruct (new s) as [|m0 l0] eqn:EN.
      * injection E as <-. constructor; unfold held; cbn [goto new cur now pc nid mark ran]; auto; rewrite ?EN; auto.
        -- unfold next. destruct k; exact JP.
        -- unfold next. destruct k; exact I.
        -- split; [apply JM|]. unfold next. destruct k; [intros m []|exact I].
      * rewrite <- EN in *. destruct JK as [LC SC].
        assert (NC : forall m, In m (new s) -> forall t, due m = Some t -> - 2 ^ 63 <= t - c < 2 ^ 63).
        { intros m I. apply (near_clock s m c); auto; [unfold clock; rewrite P; reflexivity|]. unfold held. rewrite P. apply in_or_app. right. exact I. }
        assert (X : exists r, sortList c (new s) = Ok r /\ Permutation r (new s) /\ StronglySorted (kle c) r).
        { apply sortList_ok; auto.
          - apply kle_trans.
          - intros x y Ix Iy L. unfold kle. rewrite !delay_relm by (apply NC; assumption). lia.
          - intros x y Ix Iy L _. unfold kle. rewrite !delay_relm by (apply NC; assumption). lia. }
        destruct X as (r & X & PR & SR). rewrite X in E. injection E as <-. constructor; unfold held; cbn [new cur now pc nid mark ran]; auto.
        -- rewrite app_nil_r. rewrite <- JP. apply Permutation_app_head. apply Permutation_map. apply Permutation_app_head. exact PR.
        -- constructor.
        -- split; [apply JM|]. intros m [].
    + injection E as <-. destruct JK as (LC & SC & SL).
      assert (NC : forall m, In m (cur s ++ l) -> forall t, due m = Some t -> - 2 ^ 63 <= t - c < 2 ^ 63).
      { intros m I. apply (near_clock s m c); auto; [unfold clock; rewrite P; reflexivity|]. unfold held. rewrite P, app_assoc. apply in_or_app. auto. }
      constructor; unfold held; cbn [new cur now pc nid mark ran]; auto.
      * rewrite <- JP. apply Permutation_app_head. apply Permutation_map. cbn [app]. rewrite app_assoc. apply Permutation_app_tail.
        rewrite merge_perm. apply Permutation_app_comm.
      * constructor.
      * split; [|constructor]. apply (sorted_later c); [exact LC|]. apply merge_sorted; auto.
        -- apply kle_trans.
        -- intros x y Ix Iy L. unfold kle. rewrite !delay_relm by (apply NC; apply in_or_app; auto). lia.
        -- intros x y Ix Iy L. unfold kle. rewrite !delay_relm by (apply NC; apply in_or_app; auto). lia.
    + injection E as <-. destruct JK as (SL & UC). constructor; unfold held; cbn [new cur now pc nid mark ran]; auto.
      * rewrite <- JP. apply Permutation_app_head. apply Permutation_map. unfold next. destruct k; rewrite <- app_assoc; reflexivity.
      * clear - SL UC. induction UC as [|m q D F IH]; cbn; [exact SL|]. constructor; [exact IH|]. apply Forall_forall. intros x _.
        unfold kle, delay. rewrite D. destruct (due x); lia.
      * unfold next. destruct k; exact I.
      * split; [apply JM|]. unfold next. destruct k; [apply JM|exact I].
    + injection E as <-. assert (W : sleep_ok (now s) (cur s) (waitTime (now s) (cur s))).
      { apply wait_ok; [exact JC|]. intros m t I D. destruct (N m t) as [A B]; [apply in_or_app; auto|exact D|]. unfold clock in B. rewrite P in B. lia. }
      constructor; unfold held; cbn [goto new cur now pc nid mark ran]; auto.
      * destruct (waitTime (now s) (cur s)) as [[| |]|]; exact JP.
      * destruct (waitTime (now s) (cur s)) as [[| |]|] eqn:Q; auto. destruct (cur s) as [|m r] eqn:C; [discriminate|]. exists m, r. split; [reflexivity|].
        destruct W as [W _]. cbn [waitTime] in Q. unfold delay. destruct (due m) as [t|] eqn:D; [|reflexivity]. cbv zeta in Q.
        destruct (N m t) as [A B]; [rewrite C; left; reflexivity|exact D|]. unfold clock in B. rewrite P in B. rewrite rel_near in Q by lia.
        destruct (t - now s <? 0) eqn:Z; [lia|]. injection Q as Q. lia.
      * destruct (waitTime (now s) (cur s)) as [[| |]|]; exact JM.
    + destruct JK as (m & r & C & D). rewrite C in *. injection E as <-. constructor; unfold held; cbn [new cur now pc nid mark ran]; auto.
      * rewrite <- JP. cbn [map app fst]. rewrite <- Permutation_middle. reflexivity.
      * apply StronglySorted_inv in JC as [JC _]. exact JC.
      * split; [apply JM|exact I].
      * intros x t T [X|I] DD; [|apply (JR x t T I DD)]. injection X as <- <-. unfold delay in D. rewrite DD in D. lia.
    + injection E as <-. constructor; unfold held; cbn [goto new cur now pc nid mark ran]; auto.
      * destruct (new s) eqn:EN; exact JP.
      * destruct (new s); exact I.
      * split; [apply JM|]. destruct (new s); exact I.
Qed.
Lemma init_inv : Inv init.
Proof. constructor; cbn; auto; try constructor; auto. intros m t T []. Qed.
Lemma run_ok l : forall s s', Inv s -> tame l s -> run l s = Some s' -> Inv s' /\ near s'.
Proof.
  induction l as [|a l IH]; cbn [tame run]; intros s s' V [N T] E; [injection E as <-; auto|].
  destruct (step a s) as [s1|] eqn:S; [|discriminate]. apply (IH s1 s'); auto. apply (step_ok a s); auto.
Qed.

(** * Order, if all messages are events or none is *)
Definition fits (b : bool) (a : act) : Prop := match a with Post (Some _) => b = true | Post None => b = false | Prio => False | _ => True end.
Record HInv (b : bool) (s : st) : Prop := {
  h_kind : forall m, In m (cur s ++ held s ++ new s) -> (due m = None <-> b = false);
  h_cur : StronglySorted before (cur s);
  h_pc : match pc s with
         | S2 _ _ l => StronglySorted before l /\ forall x y, In x (cur s) -> In y l -> (tid x < tid y)%nat
         | S3 _ l => cur s = [] /\ StronglySorted before l
         | _ => True
         end;
  h_new : forall x y, In x (cur s ++ held s) -> In y (new s) -> (tid x < tid y)%nat;
}.
Lemma before_trans x y z : before x y -> before y z -> before x z.
Proof. unfold before. lia. Qed.
Lemma relm_key b c x y : (due x = None <-> b = false) -> (due y = None <-> b = false) ->
  (forall t, due x = Some t -> - 2 ^ 63 <= t - c < 2 ^ 63) -> (forall t, due y = Some t -> - 2 ^ 63 <= t - c < 2 ^ 63) ->
  relm c x - relm c y = key x - key y.
Proof.
  intros KX KY NX NY. unfold relm, key. destruct (due x) as [t|] eqn:DX, (due y) as [u|] eqn:DY.
  - rewrite !rel_near by auto. lia.
  - destruct b; [destruct KY as [KY _]; discriminate KY; reflexivity|]. destruct KX as [_ KX]. discriminate KX; reflexivity.
  - destruct b; [destruct KX as [KX _]; discriminate KX; reflexivity|]. destruct KY as [_ KY]. discriminate KY; reflexivity.
  - lia.
Qed.
Lemma hstep_ok b a s s' : Inv s -> near s -> fits b a -> HInv b s -> step a s = Some s' -> HInv b s'.
Proof.
  intros V N F [HK HC HP HN] E. pose proof (waiting_lt s) as WLT. destruct a as [t| |d|].
  - cbn in E. injection E as <-. constructor; cbn [new cur now pc nid mark ran]; auto.
    + change (held (mkSt (mkT (nid s) t :: new s) (cur s) (now s) (pc s) (S (nid s)) (mark s) (ran s))) with (held s).
      intros m I. rewrite !in_app_iff in I. cbn [In] in I. destruct I as [I|[I|[<-|I]]].
      * apply HK. rewrite !in_app_iff. auto.
      * apply HK. rewrite !in_app_iff. auto.
      * cbn. destruct t; cbn in F; subst b; split; auto; discriminate.
      * apply HK. rewrite !in_app_iff. auto.
    + change (held (mkSt (mkT (nid s) t :: new s) (cur s) (now s) (pc s) (S (nid s)) (mark s) (ran s))) with (held s).
      intros x y Ix [<-|Iy]; [|auto]. cbn. apply WLT; [exact V|]. rewrite app_assoc. apply in_or_app. auto.
  - destruct F.
  - cbn in E. injection E as <-. constructor; auto.
  - cbn in E. unfold wstep in E. unfold held in *. destruct (pc s) as [|k|k c|k c l|k l| | |] eqn:P.
    + injection E as <-. constructor; unfold held; cbn [new cur now pc nid mark ran]; auto.
    + injection E as <-. constructor; unfold held; cbn [goto new cur now pc nid mark ran]; auto.
    + destruct (new s) as [|m0 l0] eqn:EN.
      * injection E as <-. constructor; unfold held; cbn [goto new cur now pc nid mark ran]; auto; rewrite ?EN; auto.
        -- unfold next. destruct k; exact HK.
        -- unfold next. destruct k; exact I.
        -- intros x y _ [].
      * rewrite <- EN in *. pose proof (j_pc _ V) as JK. rewrite P in JK. destruct JK as [LC _].
        assert (NC : forall m, In m (new s) -> forall t, due m = Some t -> - 2 ^ 63 <= t - c < 2 ^ 63).
        { intros m I. apply (near_clock s m c); auto; [unfold clock; rewrite P; reflexivity|]. unfold held. rewrite P. apply in_or_app. right. exact I. }
        assert (KC : forall x y, In x (new s) -> In y (new s) -> relm c x - relm c y = key x - key y).
        { intros x y Ix Iy. apply (relm_key b); [apply HK|apply HK|apply NC; exact Ix|apply NC; exact Iy]; rewrite !in_app_iff; auto. }
        assert (X : exists r, sortList c (new s) = Ok r /\ Permutation r (new s) /\ StronglySorted before r).
        { apply sortList_ok; auto.
          - apply before_trans.
          - intros x y Ix Iy L. unfold before. specialize (KC x y Ix Iy). lia.
          - intros x y Ix Iy L T. unfold before. specialize (KC x y Ix Iy). lia.
          - apply (j_new _ V). }
        destruct X as (r & X & PR & SR). rewrite X in E. injection E as <-. constructor; unfold held; cbn [new cur now pc nid mark ran]; auto.
        -- intros m I. apply HK. rewrite !in_app_iff in *. destruct I as [I|[I|[]]]; auto. right. right. apply (Permutation_in _ PR). exact I.
        -- split; [exact SR|]. intros x y Ix Iy. apply HN; [rewrite app_nil_r; exact Ix|]. apply (Permutation_in _ PR). exact Iy.
        -- intros x y _ [].
    + injection E as <-. pose proof (j_pc _ V) as JK. rewrite P in JK. destruct JK as (LC & _). destruct HP as [SL CL].
      assert (NC : forall m, In m (cur s ++ l) -> forall t, due m = Some t -> - 2 ^ 63 <= t - c < 2 ^ 63).
      { intros m I. apply (near_clock s m c); auto; [unfold clock; rewrite P; reflexivity|]. unfold held. rewrite P, app_assoc. apply in_or_app. auto. }
      assert (KC : forall x y, In x (cur s ++ l) -> In y (cur s ++ l) -> relm c x - relm c y = key x - key y).
      { intros x y Ix Iy. apply (relm_key b); [apply HK|apply HK|apply NC; exact Ix|apply NC; exact Iy]; rewrite app_assoc; apply in_or_app; auto. }
      assert (PM : Permutation (merge c l (cur s)) (cur s ++ l)) by (rewrite merge_perm; apply Permutation_app_comm).
      constructor; unfold held; cbn [new cur now pc nid mark ran]; auto.
      * intros m I. apply HK. rewrite app_assoc. cbn [app] in I. apply in_app_or in I. destruct I as [I|I]; [|apply in_or_app; auto].
        apply in_or_app. left. apply (Permutation_in _ PM). exact I.
      * constructor.
      * split; [reflexivity|]. apply merge_sorted; auto.
        -- apply before_trans.
        -- intros x y Ix Iy L. unfold before. assert (KC' : relm c x - relm c y = key x - key y) by (apply KC; apply in_or_app; auto). lia.
        -- intros x y Ix Iy L. unfold before. assert (KC' : relm c x - relm c y = key x - key y) by (apply KC; apply in_or_app; auto). specialize (CL y x Iy Ix). lia.
      * intros x y Ix Iy. cbn [app] in Ix. apply HN; [|exact Iy]. apply (Permutation_in _ PM). exact Ix.
    + injection E as <-. destruct HP as (C & SL). rewrite C in *. cbn [app] in *. constructor; unfold held; cbn [new cur now pc nid mark ran app]; auto.
      * intros m I. apply HK. unfold next in I. destruct k; exact I.
      * unfold next. destruct k; exact I.
      * intros x y Ix Iy. apply HN; [|exact Iy]. unfold next in Ix. destruct k; rewrite app_nil_r in Ix; exact Ix.
    + injection E as <-. constructor; unfold held; cbn [goto new cur now pc nid mark ran]; auto.
      * destruct (waitTime (now s) (cur s)) as [[| |]|]; exact HK.
      * destruct (waitTime (now s) (cur s)) as [[| |]|]; exact I.
      * destruct (waitTime (now s) (cur s)) as [[| |]|]; exact HN.
    + destruct (cur s) as [|m r] eqn:C.
      * injection E as <-. constructor; unfold held; cbn [goto new cur now pc nid mark ran]; auto; rewrite C; auto.
      * injection E as <-. constructor; unfold held; cbn [new cur now pc nid mark ran]; auto.
        -- intros x I. apply HK. right. exact I.
        -- apply StronglySorted_inv in HC as [HC _]. exact HC.
        -- intros x y Ix Iy. apply HN; [right; exact Ix|exact Iy].
    + injection E as <-. constructor; unfold held; cbn [goto new cur now pc nid mark ran]; auto.
      * destruct (new s) eqn:EN; exact HK.
      * destruct (new s); exact I.
      * destruct (new s) eqn:EN; exact HN.
Qed.
Lemma hrun_ok b l : forall s s', Inv s -> HInv b s -> Forall (fits b) l -> tame l s -> run l s = Some s' -> HInv b s'.
Proof.
  induction l as [|a l IH]; cbn [tame run]; intros s s' V H F [N T] E; [injection E as <-; auto|].
  destruct (step a s) as [s1|] eqn:S; [|discriminate]. inversion F; subst. apply (IH s1 s'); auto; [apply (step_ok a s)|apply (hstep_ok b a s)]; auto.
Qed.
Lemma init_hinv b : HInv b init.
Proof. constructor; cbn; auto; try constructor; try tauto; intros; tauto. Qed.
(** the worker is never stuck *)
Lemma never_stuck s : Inv s -> near s -> wstep s <> None.
Proof.
  intros V N. unfold wstep. destruct (pc s) as [|k|k c|k c l|k l| | |] eqn:P; try discriminate.
  - destruct (new s) as [|m0 l0] eqn:EN; [discriminate|]. rewrite <- EN in *. pose proof (j_pc _ V) as JK. rewrite P in JK. destruct JK as [LC _].
    assert (NC : forall m, In m (new s) -> forall t, due m = Some t -> - 2 ^ 63 <= t - c < 2 ^ 63).
    { intros m I. apply (near_clock s m c); auto; [unfold clock; rewrite P; reflexivity|]. unfold held. rewrite P. apply in_or_app. right. exact I. }
    destruct (sortList_ok (kle c) c (new s)) as (r & X & _).
    + apply kle_trans.
    + intros x y Ix Iy L. unfold kle. rewrite !delay_relm by (apply NC; assumption). lia.
    + intros x y Ix Iy L _. unfold kle. rewrite !delay_relm by (apply NC; assumption). lia.
    + apply (j_new _ V).
    + rewrite X. discriminate.
  - destruct (cur s); discriminate.
Qed.

(** * Progress *)
Definition waiting (s : st) : list tmsg := cur s ++ held s ++ new s.
Lemma near_work s s' : Inv s -> near s -> wstep s = Some s' -> near s'.
Proof.
  intros V N E. pose proof (step_ok Work s s' V N E) as V'. intros m t I D.
  assert (J : In m (waiting s) /\ now s' = now s).
  { pose proof (never_stuck s V N) as NS. unfold wstep in E, NS. unfold waiting, held in *. destruct (pc s) as [|k|k c|k c l|k l| | |] eqn:P.
    - injection E as <-. auto.
    - injection E as <-. auto.
    - destruct (new s) as [|m0 l0] eqn:EN.
      + injection E as <-. cbn in *. unfold next in I. rewrite EN in I. destruct k; auto.
      + rewrite <- EN in *. pose proof (j_pc _ V) as JK. rewrite P in JK. destruct JK as [LC _].
        assert (NC : forall x, In x (new s) -> forall u, due x = Some u -> - 2 ^ 63 <= u - c < 2 ^ 63).
        { intros x Ix. apply (near_clock s x c); auto; [unfold clock; rewrite P; reflexivity|]. unfold held. rewrite P. apply in_or_app. right. exact Ix. }
        destruct (sortList_ok (kle c) c (new s)) as (r & X & PR & _).
        * apply kle_trans.
        * intros x y Ix Iy L. unfold kle. rewrite !delay_relm by (apply NC; assumption). lia.
        * intros x y Ix Iy L _. unfold kle. rewrite !delay_relm by (apply NC; assumption). lia.
        * apply (j_new _ V).
        * rewrite X in E. injection E as <-. cbn [new cur now pc] in *. split; [|reflexivity]. rewrite app_nil_r in I. apply in_app_or in I. apply in_or_app.
          destruct I as [I|I]; [auto|]. right. apply (Permutation_in _ PR). exact I.
    - injection E as <-. cbn [new cur now pc app] in *. split; [|reflexivity]. apply in_app_or in I. rewrite !in_app_iff. destruct I as [I|I]; [|auto].
      apply (Permutation_in _ (merge_perm c l (cur s))) in I. apply in_app_or in I. tauto.
    - injection E as <-. cbn [new cur now pc app] in *. split; [|reflexivity]. unfold next in I. rewrite !in_app_iff in *. destruct k; cbn [In] in I; tauto.
    - injection E as <-. cbn in *. destruct (waitTime (now s) (cur s)) as [[| |]|]; auto.
    - destruct (cur s) as [|x r] eqn:C; injection E as <-; cbn in *; rewrite ?C in *; auto.
    - injection E as <-. cbn in *. destruct (new s) eqn:EN; rewrite ?EN in *; auto. }
  destruct J as [J EN]. destruct (N m t J D) as [A B]. split; [lia|].
  pose proof (j_pc _ V) as JK. pose proof (j_pc _ V') as JK'. unfold clock in *. rewrite EN in *.
  assert (Q : clock s' = now s \/ clock s' = clock s).
  { unfold clock. rewrite EN. clear - E. unfold wstep in E. destruct (pc s) as [|k|k c|k c l|k l| | |] eqn:P.
    - injection E as <-. auto.
    - injection E as <-. auto.
    - destruct (new s); [injection E as <-; cbn; unfold next; destruct k; auto|].
      destruct (sortList c (t :: l)); try discriminate. injection E as <-. auto.
    - injection E as <-. auto.
    - injection E as <-. cbn. unfold next. destruct k; auto.
    - injection E as <-. cbn. destruct (waitTime (now s) (cur s)) as [[| |]|]; auto.
    - destruct (cur s); injection E as <-; auto.
    - injection E as <-. cbn. destruct (new s); auto. }
  unfold clock in Q. rewrite EN in Q. destruct Q as [Q|Q]; rewrite Q; [|exact B].
  destruct (pc s); try lia; destruct JK as [JK _]; lia.
Qed.

Definition mu (s : st) : nat :=
  match new s with
  | [] => match pc s with S5 => 0 | S4 => 1 | S3 true _ => 2 | S2 true _ _ => 3 | S1 true _ => 4 | S0 true => 5 | Idle => 6 | S6 => 7
          | S3 false _ => 6 | S2 false _ _ => 7 | S1 false _ => 6 | S0 false => 8 end
  | _ => match pc s with S5 => 0 | S1 _ _ => 14 | S0 _ => 15 | Idle => 16 | S6 => 16 | S4 => 17 | S3 true _ => 18 | S2 true _ _ => 19
         | S3 false _ => 16 | S2 false _ _ => 17 end
  end.
Ltac fin := solve [lia | split; [auto|]; split; [auto|]; split; [auto|lia]].
Lemma work_grows s m : Inv s -> near s -> In m (waiting s) -> delay (now s) m = 0 -> exists s', wstep s = Some s' /\
  (length (ran s') = S (length (ran s)) \/ ran s' = ran s /\ now s' = now s /\ In m (waiting s') /\ (mu s' < mu s)%nat).
Proof.
  intros V N I D. pose proof (j_pc _ V) as JK. unfold wstep, waiting, held in *. destruct (pc s) as [|k|k c|k c l|k l| | |] eqn:P.
  - eexists. split; [reflexivity|]. right. cbn. unfold mu. rewrite P. cbn. destruct (new s); fin.
  - eexists. split; [reflexivity|]. right. cbn. unfold mu. rewrite P. cbn. destruct (new s), k; fin.
  - destruct (new s) as [|m0 l0] eqn:EN.
    + eexists. split; [reflexivity|]. right. cbn. unfold mu, next. rewrite EN, P. cbn. rewrite EN. destruct k; fin.
    + rewrite <- EN in *. destruct JK as [LC _].
      assert (NC : forall x, In x (new s) -> forall u, due x = Some u -> - 2 ^ 63 <= u - c < 2 ^ 63).
      { intros x Ix. apply (near_clock s x c); auto; [unfold clock; rewrite P; reflexivity|]. unfold held. rewrite P. apply in_or_app. right. exact Ix. }
      destruct (sortList_ok (kle c) c (new s)) as (r & X & PR & _).
      * apply kle_trans.
      * intros x y Ix Iy L. unfold kle. rewrite !delay_relm by (apply NC; assumption). lia.
      * intros x y Ix Iy L _. unfold kle. rewrite !delay_relm by (apply NC; assumption). lia.
      * apply (j_new _ V).
      * rewrite X. eexists. split; [reflexivity|]. right. cbn [new cur now pc ran]. split; [reflexivity|]. split; [reflexivity|]. split.
        -- rewrite app_nil_r. apply in_app_or in I. apply in_or_app. destruct I as [I|I]; [auto|]. right. apply (Permutation_in _ (Permutation_sym PR)). exact I.
        -- unfold mu. cbn [new pc]. rewrite EN, P. destruct k; fin.
  - eexists. split; [reflexivity|]. right. cbn [new cur now pc ran app]. split; [reflexivity|]. split; [reflexivity|]. split.
    + rewrite !in_app_iff in I. apply in_or_app. destruct I as [I|[I|I]]; [left|left|auto]; apply (Permutation_in _ (Permutation_sym (merge_perm c l (cur s)))); apply in_or_app; auto.
    + unfold mu. cbn [new pc]. rewrite P. destruct (new s), k; fin.
  - eexists. split; [reflexivity|]. right. cbn [new cur now pc ran app]. split; [reflexivity|]. split; [reflexivity|]. split.
    + unfold next. rewrite !in_app_iff in *. destruct k; tauto.
    + unfold mu, next. cbn [new pc]. rewrite P. destruct (new s), k; fin.
  - eexists. split; [reflexivity|]. right. cbn [goto ran now]. split; [reflexivity|]. split; [reflexivity|]. split.
    + cbn. destruct (waitTime (now s) (cur s)) as [[| |]|]; exact I.
    + unfold mu. cbn [goto new pc]. rewrite P. destruct (new s) as [|a b] eqn:EN; [|destruct (waitTime (now s) (cur s)) as [[| |]|]; fin].
      cbn [app] in I. rewrite app_nil_r in I.
      assert (W : sleep_ok (now s) (cur s) (waitTime (now s) (cur s))).
      { apply wait_ok; [apply (j_cur _ V)|]. intros x t Ix Dx. destruct (N x t) as [A B]; [apply in_or_app; auto|exact Dx|]. unfold clock in B. rewrite P in B. lia. }
      destruct (waitTime (now s) (cur s)) as [z|]; cbn in W; [|rewrite W in I; destruct I]. destruct W as [W (x & Ix & Ex)]. specialize (W m I).
      assert (0 <= z) by (rewrite Ex; unfold delay; destruct (due x); lia). replace z with 0 by lia. fin.
  - destruct JK as (x & r & C & _). rewrite C. eexists. split; [reflexivity|]. left. reflexivity.
  - eexists. split; [reflexivity|]. right. cbn [goto ran now]. split; [reflexivity|]. split; [reflexivity|]. split.
    + cbn. destruct (new s) eqn:EN; exact I.
    + unfold mu. cbn [goto new pc]. rewrite P. destruct (new s) eqn:EN; fin.
Qed.
Lemma progress n : forall s m, Inv s -> near s -> In m (waiting s) -> delay (now s) m = 0 -> (mu s < n)%nat ->
  exists k s', run (repeat Work k) s = Some s' /\ length (ran s') = S (length (ran s)).
Proof.
  induction n as [|n IH]; intros s m V N I D L; [lia|]. destruct (work_grows s m V N I D) as (s1 & E & [G|(R & W & J & M)]).
  - exists 1%nat, s1. cbn. rewrite E. auto.
  - destruct (IH s1 m) as (k & s' & RR & G); auto.
    + apply (step_ok Work s); auto.
    + apply (near_work s); auto.
    + rewrite W. exact D.
    + lia.
    + exists (S k), s'. cbn. rewrite E. split; [exact RR|]. rewrite G, R. reflexivity.
Qed.

(** a test for [tame] *)
Definition nearb (s : st) : bool :=
  forallb (fun m => match due m with Some t => (- 2 ^ 63 <=? t - now s) && (t - clock s <? 2 ^ 63) | None => true end) (cur s ++ held s ++ new s).
Fixpoint tameb (l : list act) (s : st) : bool :=
  nearb s && match l with [] => true | a :: t => match step a s with Some s' => tameb t s' | None => false end end.
Lemma tameb_ok l : forall s, tameb l s = true -> tame l s.
Proof.
  assert (NB : forall s, nearb s = true -> near s).
  { intros s H m t I D. unfold nearb in H. rewrite forallb_forall in H. specialize (H m I). rewrite D in H. apply andb_true_iff in H. lia. }
  induction l as [|a l IH]; cbn; intros s H; apply andb_true_iff in H; destruct H as [H1 H2]; split; auto.
  destruct (step a s); [auto|discriminate].
Qed.
