From Verif Require Import Common CmdLine_Spec CmdLine_Model.

(** the position the state stands for *)
Definition good (z : bool) (args : list str) : Prop := z = true \/ ~ In [] args.
Inductive R (args : list str) (s : st) (p : pos) : Prop :=
| R0 : charPos s = 0 -> part p = None -> rest p = skipn (argPos s) args -> R args s p
| R1 a : 2 <= charPos s -> charPos s < length a -> part p = Some (a, skipn (charPos s) a) ->
    skipn (argPos s) args = a :: rest p -> R args s p.

Lemma skipn_nth {X} (d : X) : forall l n a r, skipn n l = a :: r -> nth n l d = a /\ n < length l /\ skipn (n + 1) l = r.
Proof.
  induction l as [|x l IH]; intros [|n] a r; cbn; try discriminate.
  - intros E. injection E as <- <-. repeat split; auto; lia.
  - intros E. apply IH in E. destruct E as (A & B & C). repeat split; auto; lia.
Qed.
Lemma skipn_nil {X} : forall (l : list X) n, skipn n l = [] -> length l <= n.
Proof. intros l n E. apply (f_equal (@length X)) in E. rewrite skipn_length in E. cbn in E. lia. Qed.
Lemma skipn_lt {X} (l : list X) n : n < length l -> exists a r, skipn n l = a :: r.
Proof. intros L. destruct (skipn n l) as [|a r] eqn:E; eauto. apply skipn_nil in E. lia. Qed.
Lemma skipn_in {X} : forall (l : list X) n a r, skipn n l = a :: r -> In a l.
Proof. induction l as [|x l IH]; intros [|n] a r; cbn; try discriminate. - intros E. injection E as <- <-. auto. - eauto. Qed.

Lemma R_start args k : R args (start k) (mkPos None (skipn k args)).
Proof. apply R0; auto. Qed.
Lemma offset_ok {X} (l : list X) n : offset l n = skipn n l.
Proof. unfold offset. destruct (Nat.ltb_spec (length l) n); auto. rewrite !skipn_all2; auto; lia. Qed.
Lemma has_ok args s p : R args s p -> hasItems args s = match remain p with [] => false | _ => true end.
Proof.
  unfold hasItems, remain. intros [A B C|a A B C D].
  - rewrite B, C. destruct (skipn (argPos s) args) eqn:E.
    + apply skipn_nil in E. apply Nat.ltb_ge. auto.
    + apply (@skipn_nth str []) in E. apply Nat.ltb_lt. tauto.
  - rewrite C. apply (@skipn_nth str []) in D. apply Nat.ltb_lt. tauto.
Qed.
Lemma remain_ok args s p : R args s p -> getRemainArgs args s = remain p.
Proof.
  unfold getRemainArgs, remain. rewrite offset_ok. intros [A B C|a A B C D].
  - rewrite B. auto. - rewrite C. auto.
Qed.
Lemma mid1 a n c r : skipn n a = c :: r -> mid a n 1 = [c].
Proof.
  intros E. pose proof (skipn_nth 0 _ _ _ _ E) as (A & B & C). unfold mid.
  rewrite (proj2 (Nat.leb_gt _ _)) by lia. rewrite E. destruct (Nat.ltb_spec (length a) (n + 1)); [lia|]. auto.
Qed.

Lemma next_ok z args s p : good z args -> R args s p ->
  match next p with
  | None => peek z args s = Throw /\ getNext z args s = Throw
  | Some (i, p') => peek z args s = Ok i /\ exists s', getNext z args s = Ok (i, s') /\ R args s' p' /\ lessThan s s' = true
  end.
Proof.
  intros G H. pose proof (has_ok _ _ _ H) as HH. destruct p as [pt rs]. destruct H as [A B C|a A B C D]; cbn [part rest] in *.
  - subst pt. unfold remain in HH. cbn [part rest] in HH. cbn [next].
    destruct rs as [|a l]; [unfold getNext, peek; rewrite HH; auto|].
    pose proof (@skipn_nth str [] _ _ _ _ (eq_sym C)) as (N & L & K).
    pose proof (skipn_in _ _ _ _ (eq_sym C)) as I.
    assert (LT : lessThan s (mkSt (argPos s + 1) 0) = true) by (unfold lessThan; cbn [argPos charPos]; rewrite (proj2 (Nat.ltb_lt _ _)) by lia; auto).
    assert (RT : R args (mkSt (argPos s + 1) 0) (mkPos None l)) by (apply R0; auto).
    destruct a as [|x [|y r]]; [| |destruct (x =? dash) eqn:X; [destruct (y =? dash) eqn:Y|]];
      unfold getNext, peek; rewrite HH; cbn [negb]; rewrite A, N; cbn [Nat.eqb].
    + assert (Z : z = true) by (destruct G as [G|G]; tauto). subst z. cbn. split; auto. eauto.
    + unfold at_. cbn. rewrite andb_false_r. cbn. split; auto. eauto.
    + unfold at_. cbn [nth_error obind length]. change (1 <? S (S (length r))) with true. rewrite X, Y, offset_ok. cbn [andb obind skipn].
      split; eauto.
    + unfold at_. cbn [nth_error obind length]. change (1 <? S (S (length r))) with true. rewrite X, Y. cbn [andb obind].
      rewrite (mid1 (x :: y :: r) 1 y r eq_refl). split; auto. cbn [Nat.add]. destruct r as [|c r]; cbn [length Nat.leb after].
      * eexists. split; [reflexivity|]. auto.
      * eexists. split; [reflexivity|]. split.
        { apply (R1 _ _ _ (x :: y :: c :: r)); cbn [part rest argPos charPos length skipn]; auto; lia. }
        { unfold lessThan. cbn [argPos charPos]. rewrite A, Nat.eqb_refl. cbn. apply orb_true_r. }
    + unfold at_. cbn [nth_error obind length]. rewrite X. cbn [andb obind]. split; eauto.
  - subst pt. unfold remain in HH. cbn [part rest] in HH.
    destruct (skipn_lt a _ B) as (c & r & E). rewrite E. cbn [next].
    pose proof (@skipn_nth str [] _ _ _ _ D) as (N & L & K).
    pose proof (skipn_nth 0 _ _ _ _ E) as (N' & L' & K').
    unfold getNext, peek. rewrite HH. cbn [negb]. rewrite N. rewrite (proj2 (Nat.eqb_neq (charPos s) 0)) by lia.
    rewrite (mid1 _ _ c r E). cbn [obind]. split; auto. destruct (Nat.leb_spec (length a) (charPos s + 1)) as [Q|Q].
    + rewrite skipn_all2 in K' by lia. subst r. cbn [after]. eexists. split; [reflexivity|]. split.
      * apply R0; auto. * unfold lessThan. cbn [argPos charPos]. rewrite (proj2 (Nat.ltb_lt _ _)) by lia. auto.
    + destruct r as [|d r]; [apply skipn_nil in K'; lia|]. cbn [after]. eexists. split; [reflexivity|]. split.
      * apply (R1 _ _ _ a); cbn; auto; try lia. rewrite K'. auto.
      * unfold lessThan. cbn [argPos charPos]. rewrite Nat.eqb_refl, (proj2 (Nat.ltb_lt (charPos s) _)) by lia. apply orb_true_r.
Qed.

Lemma text_ok args s p : R args s p ->
  match text p with
  | None => peekText args s = Throw /\ getNextText args s = Throw
  | Some (t, p') => peekText args s = Ok t /\ exists s', getNextText args s = Ok (t, s') /\ R args s' p' /\ lessThan s s' = true
  end.
Proof.
  intros H. pose proof (has_ok _ _ _ H) as HH. destruct p as [pt rs]. unfold remain in HH.
  assert (LT : lessThan s (mkSt (argPos s + 1) 0) = true) by (unfold lessThan; cbn [argPos charPos]; rewrite (proj2 (Nat.ltb_lt _ _)) by lia; auto).
  destruct H as [A B C|a A B C D]; cbn [part rest] in *; subst pt; cbn [text]; unfold getNextText, peekText; rewrite HH, ?offset_ok.
  - destruct rs as [|a l]; auto. pose proof (@skipn_nth str [] _ _ _ _ (eq_sym C)) as (N & L & K).
    cbn [negb obind]. rewrite N, A. split; auto. eexists. split; [reflexivity|]. split; auto. apply R0; auto.
  - pose proof (@skipn_nth str [] _ _ _ _ D) as (N & L & K). cbn [negb obind]. rewrite N. split; auto.
    eexists. split; [reflexivity|]. split; auto. apply R0; auto.
Qed.

Lemma call_ok z args o s p : good z args -> R args s p ->
  match call o p with
  | Ok (r, p') => exists s', exec z args o s = Ok (r, s') /\ R args s' p' /\ (if consumes o then lessThan s s' = true else s' = s)
  | Throw => exec z args o s = Throw
  | _ => False
  end.
Proof.
  intros G H. pose proof (next_ok z args s p G H) as N. pose proof (text_ok args s p H) as X.
  destruct o; cbn [call exec consumes].
  - destruct (next p) as [[i p']|]; [destruct N as (_ & s' & E & Q & L)|destruct N as (_ & E)]; rewrite E; cbn [obind]; eauto.
  - destruct (next p) as [[i p']|]; [destruct N as (E & _)|destruct N as (E & _)]; rewrite E; cbn [obind]; eauto.
  - destruct (text p) as [[i p']|]; [destruct X as (_ & s' & E & Q & L)|destruct X as (_ & E)]; rewrite E; cbn [obind]; eauto.
  - destruct (text p) as [[i p']|]; [destruct X as (E & _)|destruct X as (E & _)]; rewrite E; cbn [obind]; eauto.
  - rewrite (remain_ok _ _ _ H). eauto.
  - rewrite (has_ok _ _ _ H). eauto.
Qed.

Lemma calls_ok z args : good z args -> forall l s p, R args s p ->
  match calls l p with
  | Ok rs => exists s', execs z args l s = Ok (rs, s')
  | Throw => execs z args l s = Throw
  | _ => False
  end.
Proof.
  intros G. induction l as [|o l IH]; intros s p H; cbn [calls execs]; [eauto|].
  pose proof (call_ok z args o s p G H) as C. destruct (call o p) as [[r p']| | |]; try contradiction.
  - destruct C as (s' & E & H' & _). rewrite E. cbn [obind]. specialize (IH s' p' H'). destruct (calls l p') as [rs| | |]; try contradiction.
    + destruct IH as (s'' & E'). rewrite E'. cbn. eauto. + rewrite IH. reflexivity.
  - rewrite C. reflexivity.
Qed.

Lemma less_trans a b c : lessThan a b = true -> lessThan b c = true -> lessThan a c = true.
Proof. unfold lessThan. lia. Qed.
Lemma less_neq a b : lessThan a b = true -> equalTo a b = false /\ lessThan b a = false.
Proof. unfold lessThan, equalTo. lia. Qed.

Lemma execs_less z args : good z args -> forall l s p rs s', R args s p -> execs z args l s = Ok (rs, s') ->
  if existsb consumes l then lessThan s s' = true else s' = s.
Proof.
  intros G. induction l as [|o l IH]; intros s p rs s' H E; cbn in *; [congruence|].
  pose proof (call_ok z args o s p G H) as C. apply obind_ok in E. destruct E as ((r & s1) & E1 & E2).
  apply obind_ok in E2. destruct E2 as ((rs' & s2) & E2 & E3). injection E3 as _ <-.
  destruct (call o p) as [[r' p']| | |]; try contradiction; [|congruence].
  destruct C as (s1' & E & H' & Q). assert (s1' = s1) by congruence. subst s1'. specialize (IH s1 p' rs' s2 H' E2).
  destruct (consumes o); cbn [orb].
  - destruct (existsb consumes l). + eapply less_trans; eauto. + congruence.
  - subst s1. auto.
Qed.

(** the loop *)
Definition left (p : pos) : list item := match part p with Some (_, r) => map (fun c => Short [c]) r | None => [] end ++ items (rest p).
Lemma next_left p : (forall a r, part p = Some (a, r) -> r <> []) ->
  match next p with
  | Some (i, p') => left p = i :: left p' /\ (forall a r, part p' = Some (a, r) -> r <> [])
  | None => left p = [] /\ remain p = []
  end /\ (remain p = [] -> next p = None).
Proof.
  destruct p as [[[a [|c r]]|] l]; cbn [part].
  - intros H. destruct (H a []); auto.
  - intros _. unfold next, remain, left, after. cbn. destruct r; cbn; repeat split; try discriminate; intros; congruence.
  - intros _. unfold remain, left. cbn [part rest app]. destruct l as [|a l]; cbn [next]; auto.
    split; [|discriminate]. destruct a as [|x [|y r]]; cbn; try (split; [auto|discriminate]).
    destruct (x =? dash); [destruct (y =? dash)|]; cbn; try (split; [auto|discriminate]).
    unfold after. destruct r; cbn; split; auto; intros; congruence.
Qed.
Lemma R_part args s p : R args s p -> forall a r, part p = Some (a, r) -> r <> [].
Proof.
  intros [A B C|b A B C D] a r E; [congruence|]. rewrite C in E. injection E as <- <-. intros E. apply skipn_nil in E. lia.
Qed.
Lemma readAll_ok z args : good z args -> forall f s p, R args s p -> length (left p) < f -> readAll f z args s = Ok (left p).
Proof.
  intros G. induction f as [|f IH]; intros s p H L; [lia|]. cbn [readAll].
  pose proof (next_left p (R_part _ _ _ H)) as (NL & NR). pose proof (next_ok z args s p G H) as N. rewrite (has_ok _ _ _ H).
  destruct (next p) as [[i p']|].
  - destruct (remain p); [discriminate NR; auto|]. destruct N as (_ & s' & E & H' & _). rewrite E. cbn [obind].
    destruct NL as (NL & _). rewrite NL in L. cbn in L. rewrite (IH s' p' H') by lia. cbn. rewrite NL. auto.
  - destruct NL as (A & B). rewrite B, A. auto.
Qed.
