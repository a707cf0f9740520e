(** Lemmas about merging and limiting iterators. *)
From Coq Require Import Sorting.Permutation Sorting.Sorted.
From Verif Require Import Common Iter_Spec Iter_Model Iter_Proof.

Section Merge.
  Context {A : Type} (fn : option A -> option A -> outcome (mresult A)).
  (** what the functor makes of two lists, when it gives an item at every step *)
  Inductive mrun : list A -> list A -> list A -> Prop :=
  | mr_end : mrun [] [] []
  | mr_step l r x bl br l' r' out : (l <> [] \/ r <> []) -> fn (hd_opt l) (hd_opt r) = Ok (mkMres (Some x) bl br) ->
      skip1 bl l = Ok l' -> skip1 br r = Ok r' -> mrun l' r' out -> mrun l r (x :: out).

  Definition mg_rest (m : merge A) (out : list A) : Prop :=
    exists l r, skip1 (mL (mgRes m)) (mgL m) = Ok l /\ skip1 (mR (mgRes m)) (mgR m) = Ok r /\
    if mgPrep m then match mRes (mgRes m) with
                     | Some x => exists out', out = x :: out' /\ mrun l r out'
                     | None => out = [] /\ mrun l r []
                     end
    else mrun l r out.

  Lemma mg_prepare_ok m out : mg_rest m out -> exists m', mg_prepare fn m = Ok m' /\ mg_rest m' out /\ mgPrep m' = true.
  Proof.
    intros (l & r & El & Er & H). unfold mg_prepare. destruct (mgPrep m) eqn:P.
    - exists m. split; auto. split; auto. exists l, r. rewrite P. auto.
    - cbn [prepare]. rewrite El, Er. cbn [obind]. destruct H as [|l r x bl br l' r' out N F Sl Sr H].
      + cbn [hd_opt obind mRes mL mR orb andb]. eexists. split; [reflexivity|]. split; [|reflexivity].
        exists [], []. cbn. repeat split; constructor.
      + assert (Q : match hd_opt l, hd_opt r with None, None => Ok (mkMres None false false) | a, b => fn a b end = Ok (mkMres (Some x) bl br)).
        { destruct l, r; cbn [hd_opt] in *; auto. destruct N; congruence. }
        rewrite Q. cbn [obind mRes andb]. eexists. split; [reflexivity|]. split; [|reflexivity].
        exists l', r'. cbn. split; auto. split; auto. exists out. auto.
  Qed.
  Lemma mg_op_ok m out o : mg_rest m out -> exists m', mg_op fn m o = Ok (fst (read_op out o), m') /\ mg_rest m' (snd (read_op out o)).
  Proof.
    intros H. destruct (mg_prepare_ok m out H) as (m' & E & R & P). unfold mg_op. rewrite E. cbn [obind].
    pose proof R as (l & r & El & Er & Q). rewrite P in Q. destruct (mRes (mgRes m')) as [x|] eqn:M.
    - destruct Q as (out' & -> & Q). destruct o; cbn [read_op fst snd]; eexists; (split; [reflexivity|]); auto.
      exists l, r. cbn. auto.
    - destruct Q as [-> Q]. destruct o; cbn [read_op fst snd]; eexists; (split; [reflexivity|]); auto.
  Qed.
  Lemma mg_ops_ok : forall os m out, mg_rest m out -> exists m', mg_ops fn m os = Ok (fst (read_ops out os), m') /\ mg_rest m' (snd (read_ops out os)).
  Proof.
    induction os as [|o os IH]; intros m out H; [exists m; auto|]. cbn [mg_ops read_ops].
    destruct (mg_op_ok m out o H) as (m1 & E1 & R1). rewrite E1. cbn [obind].
    destruct (read_op out o) as [a l]. cbn [fst snd] in *. destruct (IH m1 l R1) as (m2 & E2 & R2). rewrite E2. cbn [obind]. exists m2.
    destruct (read_ops l os). auto.
  Qed.
  Lemma mg_new_rest l r out : mrun l r out -> mg_rest (mg_new l r) out.
  Proof. intros H. exists l, r. cbn. auto. Qed.
End Merge.

Lemma concat_run {A} : forall l r : list A, mrun concatFn l r (l ++ r).
Proof.
  induction l as [|x l IH]; intros r.
  - induction r as [|y r IH]; [constructor|]. cbn. eapply mr_step; [right; discriminate|reflexivity|reflexivity|reflexivity|exact IH].
  - cbn. eapply mr_step; [left; discriminate|reflexivity|reflexivity|reflexivity|apply IH].
Qed.

(** ** Merge of sorted lists of numbers *)
Local Open Scope Z_scope.
Lemma sort_run : forall n l r, (length l + length r <= n)%nat -> StronglySorted Z.lt l -> StronglySorted Z.lt r ->
  (forall y, In y r -> exists x, In x l /\ y <= x) ->
  exists out, mrun (sortFn Z.ltb false) l r out /\ StronglySorted Z.lt out /\ (forall z, In z out <-> In z l \/ In z r).
Proof.
  induction n as [|n IH]; intros l r L Sl Sr H.
  - destruct l, r; cbn in L; try lia. exists []. split; [constructor|]. split; [constructor|]. cbn. tauto.
  - destruct l as [|x l].
    { destruct r as [|y r]; [exists []; split; [constructor|]; split; [constructor|]; cbn; tauto|].
      destruct (H y (or_introl eq_refl)) as (x & [] & _). }
    apply StronglySorted_inv in Sl as [Sl Fl].
    assert (Fx : forall z, In z l -> x < z) by (rewrite Forall_forall in Fl; auto).
    destruct r as [|y r].
    { destruct (IH l [] ltac:(cbn in *; lia) Sl Sr) as (out & M & So & I); [intros y []|].
      exists (x :: out). split; [eapply mr_step; [left; discriminate|reflexivity|reflexivity|reflexivity|exact M]|].
      split; [constructor; auto; apply Forall_forall; intros z Hz; apply I in Hz as [Hz|[]]; auto|].
      intros z. cbn. rewrite I. cbn. tauto. }
    apply StronglySorted_inv in Sr as [Sr Fr].
    assert (Fy : forall z, In z r -> y < z) by (rewrite Forall_forall in Fr; auto).
    destruct (Z.lt_trichotomy x y) as [Q|[Q|Q]].
    + destruct (IH l (y :: r)) as (out & M & So & I); [cbn in *; lia|auto|constructor; auto| |].
      { intros z Hz. assert (Z : x < z) by (destruct Hz as [<-|Hz]; [auto|apply Fy in Hz; lia]).
        destruct (H z Hz) as (w & [<-|Hw] & Le); [lia|eauto]. }
      exists (x :: out). split; [eapply mr_step; [left; discriminate|cbn; destruct (Z.ltb_spec x y); [reflexivity|lia]|reflexivity|reflexivity|exact M]|].
      split; [constructor; auto; apply Forall_forall; intros z Hz; apply I in Hz as [Hz|[<-|Hz]]; auto; apply Fy in Hz; lia|].
      intros z. cbn [In]. rewrite I. cbn [In]. tauto.
    + subst y. destruct (IH l r) as (out & M & So & I); [cbn in *; lia|auto|auto| |].
      { intros z Hz. pose proof (Fy z Hz). destruct (H z (or_intror Hz)) as (w & [<-|Hw] & Le); [lia|eauto]. }
      exists (x :: out). split; [eapply mr_step; [left; discriminate|cbn; rewrite Z.ltb_irrefl; reflexivity|reflexivity|reflexivity|exact M]|].
      split; [constructor; auto; apply Forall_forall; intros z Hz; apply I in Hz as [Hz|Hz]; auto|].
      intros z. cbn [In]. rewrite I. tauto.
    + destruct (IH (x :: l) r) as (out & M & So & I); [cbn in *; lia|constructor; auto|auto| |].
      { intros z Hz. apply H. right. exact Hz. }
      exists (y :: out). split; [eapply mr_step; [left; discriminate|cbn; destruct (Z.ltb_spec x y); [lia|]; cbn; destruct (Z.ltb_spec y x); [reflexivity|lia]|reflexivity|reflexivity|exact M]|].
      split; [constructor; auto; apply Forall_forall; intros z Hz; apply I in Hz as [[<-|Hz]|Hz]; auto; apply Fx in Hz; lia|].
      intros z. cbn [In]. rewrite I. cbn [In]. tauto.
Qed.
Lemma sort_run_dups : forall n l r, (length l + length r <= n)%nat -> StronglySorted Z.le l -> StronglySorted Z.le r ->
  (forall y, In y r -> exists x, In x l /\ y < x) ->
  exists out, mrun (sortFn Z.ltb true) l r out /\ StronglySorted Z.le out /\ Permutation (l ++ r) out.
Proof.
  induction n as [|n IH]; intros l r L Sl Sr H.
  - destruct l, r; cbn in L; try lia. exists []. split; [constructor|]. split; constructor.
  - destruct l as [|x l].
    { destruct r as [|y r]; [exists []; split; [constructor|]; split; constructor|].
      destruct (H y (or_introl eq_refl)) as (x & [] & _). }
    apply StronglySorted_inv in Sl as [Sl Fl].
    assert (Fx : forall z, In z l -> x <= z) by (rewrite Forall_forall in Fl; auto).
    destruct r as [|y r].
    { destruct (IH l [] ltac:(cbn in *; lia) Sl Sr) as (out & M & So & I); [intros y []|].
      exists (x :: out). split; [eapply mr_step; [left; discriminate|reflexivity|reflexivity|reflexivity|exact M]|].
      rewrite app_nil_r in *.
      split; [constructor; auto; apply Forall_forall; intros z Hz; apply Fx, (Permutation_in _ (Permutation_sym I)), Hz|].
      now constructor. }
    apply StronglySorted_inv in Sr as [Sr Fr].
    assert (Fy : forall z, In z r -> y <= z) by (rewrite Forall_forall in Fr; auto).
    destruct (Z.le_gt_cases x y) as [Q|Q].
    + destruct (IH l (y :: r)) as (out & M & So & I); [cbn in *; lia|auto|constructor; auto| |].
      { intros z Hz. assert (Z : x <= z) by (destruct Hz as [<-|Hz]; [auto|apply Fy in Hz; lia]).
        destruct (H z Hz) as (w & [<-|Hw] & Le); [lia|eauto]. }
      exists (x :: out). split; [eapply mr_step; [left; discriminate|cbn; destruct (Z.ltb_spec x y); [reflexivity|]; cbn; destruct (Z.ltb_spec y x); [lia|reflexivity]|reflexivity|reflexivity|exact M]|].
      split; [|now constructor]. constructor; auto. apply Forall_forall. intros z Hz. apply (Permutation_in _ (Permutation_sym I)) in Hz.
      apply in_app_iff in Hz as [Hz|[<-|Hz]]; auto. apply Fy in Hz. lia.
    + destruct (IH (x :: l) r) as (out & M & So & I); [cbn in *; lia|constructor; auto|auto| |].
      { intros z Hz. apply H. right. exact Hz. }
      exists (y :: out). split; [eapply mr_step; [left; discriminate|cbn; destruct (Z.ltb_spec x y); [lia|]; cbn; destruct (Z.ltb_spec y x); [reflexivity|lia]|reflexivity|reflexivity|exact M]|].
      split.
      * constructor; auto. apply Forall_forall. intros z Hz. apply (Permutation_in _ (Permutation_sym I)) in Hz.
        apply in_app_iff in Hz as [[<-|Hz]|Hz]; auto; [lia|]. apply Fx in Hz. lia.
      * eapply Permutation_trans; [|constructor; exact I]. apply Permutation_sym, Permutation_middle.
Qed.

(** when the right list goes on after the end of the left one *)
Lemma sort_undef : forall n l r m, (length l + length r <= n)%nat -> mgPrep m = false ->
  skip1 (mL (mgRes m)) (mgL m) = Ok l -> skip1 (mR (mgRes m)) (mgR m) = Ok r ->
  (exists y, In y r /\ forall x, In x l -> x < y) -> exists k, mg_ops (sortFn Z.ltb false) m (repeat RNext k) = Undef.
Proof.
  induction n as [|n IH]; intros l r m L P El Er (y & Hy & Hx).
  { destruct r; [destruct Hy|cbn in L; lia]. }
  assert (Step : forall res, (match hd_opt l, hd_opt r with None, None => Ok (mkMres None false false) | a, b => sortFn Z.ltb false a b end) = res ->
          mg_op (sortFn Z.ltb false) m RNext =
          let! res := res in match mRes res with
                             | Some x => Ok (AnsItem x, mkMerge l r false res)
                             | None => (let! m := (if mL res || mR res then prepare (sortFn Z.ltb false) (S (length (mgL m) + length (mgR m))) (mkMerge l r true res) else Ok (mkMerge l r true res)) in
                                        match mRes (mgRes m) with Some x => Ok (AnsItem x, mkMerge (mgL m) (mgR m) false (mgRes m)) | None => Ok (AnsEnd, m) end)
                             end).
  { intros res E. unfold mg_op, mg_prepare. rewrite P. cbn [prepare]. rewrite El, Er. cbn [obind]. rewrite E.
    destruct res as [[[x|] bl br]| | |]; cbn [obind mRes mL mR andb]; auto. }
  destruct l as [|x l].
  - exists 1%nat. destruct r as [|z r]; [destruct Hy|]. cbn [repeat mg_ops]. rewrite (Step _ eq_refl). reflexivity.
  - destruct r as [|z r]; [destruct Hy|]. specialize (Step _ eq_refl). cbn [hd_opt] in Step. unfold sortFn in Step at 2. cbn [lessPtr obind] in Step.
    destruct (Z.ltb_spec x z) as [Q|Q]; cbn [obind mRes] in Step.
    + destruct (IH l (z :: r) (mkMerge (x :: l) (z :: r) false (mkMres (Some x) true false))) as (k & E); auto; [cbn in *; lia| |].
      { exists y. split; auto. intros w Hw. apply Hx. right. auto. }
      exists (S k). cbn [repeat mg_ops]. rewrite Step. cbn [obind]. rewrite E. reflexivity.
    + assert (Ny : In y r). { destruct Hy as [<-|Hy]; auto. specialize (Hx x (or_introl eq_refl)). lia. }
      destruct (Z.ltb_spec z x) as [Q2|Q2]; cbn [obind mRes] in Step.
      * destruct (IH (x :: l) r (mkMerge (x :: l) (z :: r) false (mkMres (Some z) false true))) as (k & E); auto; [cbn in *; lia|eauto|].
        exists (S k). cbn [repeat mg_ops]. rewrite Step. cbn [obind]. rewrite E. reflexivity.
      * destruct (IH l r (mkMerge (x :: l) (z :: r) false (mkMres (Some x) true (negb false)))) as (k & E); auto; [cbn in *; lia| |].
        { exists y. split; auto. intros w Hw. apply Hx. right. auto. }
        exists (S k). cbn [repeat mg_ops]. rewrite Step. cbn [obind]. rewrite E. reflexivity.
Qed.
Local Close Scope Z_scope.

(** ** Limiters *)
Lemma rl_ops_ok {A} : forall os (l : rlimit A), fst (rl_ops l os) = fst (read_ops (firstn (rlCount l) (rlSrc l)) os).
Proof.
  assert (O : forall (l : rlimit A) o, fst (rl_op l o) = fst (read_op (firstn (rlCount l) (rlSrc l)) o) /\
              firstn (rlCount (snd (rl_op l o))) (rlSrc (snd (rl_op l o))) = snd (read_op (firstn (rlCount l) (rlSrc l)) o)).
  { intros [src [|c]] o; destruct o, src as [|x src]; cbn; rewrite ?firstn_nil, ?Nat.sub_0_r; auto. }
  induction os as [|o os IH]; intros l; auto. cbn [rl_ops read_ops]. destruct (O l o) as [O1 O2].
  destruct (rl_op l o) as [a l1], (read_op _ o) as [b l2]. cbn [fst snd] in *. subst. specialize (IH l1).
  destruct (rl_ops l1 os), (read_ops _ os). cbn in *. congruence.
Qed.
Lemma wl_writes_ok {A} : forall (xs : list A) w, wl_writes w xs =
  if (length xs <=? wlCount w) && t_fits (wlT w) (length xs) then Ok (mkWlimit (t_push (wlT w) xs) (wlCount w - length xs)) else Throw.
Proof.
  induction xs as [|x xs IH]; intros [t c].
  - cbn. rewrite t_push_nil, Nat.sub_0_r. unfold t_fits. destruct (troom t); auto.
  - cbn [wl_writes]. unfold wl_write. cbn [wlT wlCount]. destruct (Nat.eqb_spec c 0) as [->|N]; [reflexivity|].
    destruct (t_open t) eqn:O.
    + rewrite (t_write_ok _ _ O). cbn [obind]. rewrite IH. cbn [wlT wlCount]. rewrite t_push_app. cbn [app length].
      replace (length xs <=? c - 1) with (S (length xs) <=? c) by (destruct (Nat.leb_spec (S (length xs)) c), (Nat.leb_spec (length xs) (c - 1)); auto; lia).
      replace (t_fits (t_push t [x]) (length xs)) with (t_fits t (S (length xs))).
      * replace (c - 1 - length xs) with (c - S (length xs)) by lia. reflexivity.
      * unfold t_fits, t_push, t_open in *. destruct (troom t) as [[|r]|]; auto; try discriminate. cbn. now rewrite Nat.sub_0_r.
    + rewrite (t_write_full _ _ O). cbn [obind length]. replace (t_fits t (S (length xs))) with false; [now rewrite andb_false_r|].
      unfold t_fits, t_open in *. destruct (troom t) as [[|r]|]; auto; discriminate.
Qed.
