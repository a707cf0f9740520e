(** Proofs about the mutex. *)
From Verif Require Import Common Mutex_Model.

Definition ownPc (p : pc) (h : nat) : Prop :=
  match p with
  | LInc | LRec | LDone | URead | UDec | UPop | URec _ | UOwn _ | UFree => True
  | Idle | LCas | TCas => 0 < h
  | _ => False
  end.
(** the slot exists and its thread does not own the mutex for sure *)
Definition waits (p : pc) : Prop := match p with LCas2 | LWait | LLate => True | _ => False end.
Definition waitsT (p : pc) : Prop := match p with LCas2 | LWait | LLate | LTest => True | _ => False end.
Definition handing (p : pc) : option nat := match p with URec w | UOwn w | USig w => Some w | _ => None end.
Definition leaving (p : pc) : Prop := match p with UEmpty | UTry => True | _ => False end.

(** how the counter stands to the number of locks of the owner *)
Definition recOk (p : pc) (h r : nat) : Prop :=
  match p with
  | Idle | LCas | TCas => 0 < h -> r = h
  | LInc => 0 < h /\ r = h
  | URead => r = h + 1
  | UDec => r = h + 1 /\ 0 < h
  | UPop | URec _ | UOwn _ | UFree => h = 0 /\ r = 1
  | LAdd | LCas2 | LWait | LLate | LTest | LDone | LRec | UEmpty | UTry | USig _ => h = 0
  end.

Section Inv.
  Variable noTry : Prop.

  Record inv (s : state) : Prop := mkInv {
    i_own : forall t, ownPc (pcs s t) (held s t) -> owner s = Some t;
    i_sig : forall t, waitsT (pcs s t) -> signaled s t = true -> owner s = Some t;
    i_hand : forall u w, handing (pcs s u) = Some w -> qlock s = true /\ waits (pcs s w) /\ signaled s w = false /\ ~ In w (queue s);
    i_usig : forall u w, pcs s u = USig w -> owner s = Some w;
    i_one : forall u v a b, handing (pcs s u) = Some a -> handing (pcs s v) = Some b -> u = v;
    i_qlock : qlock s = true -> exists u w, handing (pcs s u) = Some w;
    i_nodup : NoDup (queue s);
    i_queue : forall w, In w (queue s) -> (waits (pcs s w) /\ signaled s w = false) \/ pcs s w = LDone;
    i_wait : forall t, waits (pcs s t) -> In t (queue s) \/ signaled s t = true \/ exists u, handing (pcs s u) = Some t;
    i_just : forall t, owner s = Some t -> ownPc (pcs s t) (held s t) \/
               (waitsT (pcs s t) /\ (signaled s t = true \/ exists u, pcs s u = USig t));
    i_rec : forall t, recOk (pcs s t) (held s t) (recursion s);
    i_free : owner s = None -> recursion s <= 1 /\ (recursion s = 1 \/ noTry);
    i_leave : forall t, leaving (pcs s t) -> 1 <= recursion s;
    i_try : noTry -> forall t, pcs s t <> TCas;
    i_lost : owner s = None -> (forall w, In w (queue s) -> pcs s w <> LWait) \/ exists u, leaving (pcs s u)
  }.

  Lemma inv_init r : r <= 1 -> r = 1 \/ noTry -> inv (init r).
  Proof.
    intros L R. constructor; cbn; try easy; auto; try (intros; lia); constructor.
  Qed.

  Definition mark (k u : nat) : Prop := True.
  Ltac learn k u P :=
    match goal with
    | H : mark k u |- _ => fail 1
    | _ => pose proof (I : mark k u); pose proof P
    end.

  Ltac split_all :=
    repeat match goal with
    | H : _ /\ _ |- _ => destruct H
    | H : exists _, _ |- _ => destruct H
    | H : Some _ = Some _ |- _ => injection H; clear H; intros; subst
    | H : Some _ = None |- _ => discriminate H
    | H : owner ?s = Some ?a, K : owner ?s = Some ?b |- _ =>
        tryif unify a b then clear K else (assert (a = b) by congruence; subst)
    | H : None = Some _ |- _ => discriminate H
    | H : False |- _ => destruct H
    | H : ?x <> ?x |- _ => destruct (H eq_refl)
    end.

  Ltac fs := cbn [setPc setOwner setRec setQueue setSig setHeld done owner recursion queue qlock signaled pcs held] in *; unfold fset in *.
  Ltac eqs :=
    repeat match goal with
    | |- context [?x =? ?y] => destruct (Nat.eqb_spec x y); subst
    | H : context [?x =? ?y] |- _ => destruct (Nat.eqb_spec x y); subst
    end.
  Ltac pcr t EP := rewrite ?EP in *; cbn [ownPc waits waitsT handing leaving recOk] in *.

  Lemma waits_T p : waits p -> waitsT p.
  Proof. destruct p; cbn; auto. Qed.
  Lemma usig_hand p w : p = USig w -> handing p = Some w.
  Proof. intros ->. reflexivity. Qed.
  Lemma not_two p h : waitsT p -> ownPc p h -> False.
  Proof. destruct p; cbn; auto. Qed.

  Ltac rdc := cbn [ownPc waits waitsT handing leaving recOk] in *.
  Lemma hand_own p h w : handing p = Some w -> ownPc p h \/ p = USig w.
  Proof. destruct p; cbn; intros E; try discriminate; auto. injection E as ->. auto. Qed.
  Lemma ldone_own p h : p = LDone -> ownPc p h.
  Proof. intros ->. exact I. Qed.
  Ltac qlia :=
    match goal with |- @eq nat _ _ => idtac | |- _ <= _ => idtac | |- _ < _ => idtac | |- False => idtac | |- @eq (option nat) _ _ => exfalso end;
    repeat match goal with H : forall _, _ |- _ => clear H end; lia.
  Ltac norm EP :=
    match type of EP with
    | ?l = _ =>
        repeat match goal with
        | H : context [l] |- _ => tryif constr_eq H EP then fail else (rewrite EP in H; cbn [ownPc waits waitsT handing leaving recOk] in H)
        | |- context [l] => rewrite EP
        end
    end.
  Lemma nodup_snoc (l : list nat) x : NoDup l -> ~ In x l -> NoDup (l ++ [x]).
  Proof.
    induction 1 as [|y l N ND IH]; intros NI; cbn; constructor; auto; try constructor.
    - intros H. apply in_app_or in H as [H|[H|[]]]; [contradiction|]. apply NI. left. congruence.
    - apply IH. intros H. apply NI. right. exact H.
  Qed.
  Lemma nodup_rm (l : list nat) x : NoDup l -> NoDup (remove Nat.eq_dec x l).
  Proof.
    induction 1 as [|y l N ND IH]; cbn; [constructor|]. destruct (Nat.eq_dec x y); [exact IH|]. constructor; [|exact IH].
    intros H. apply in_remove in H as [H _]. contradiction.
  Qed.
  Ltac chain s Own Sig Hand Usig One Qlock Queue Wait Just Free Leave Lost EP :=
    repeat (split_all; norm EP; try congruence;
      match goal with
      | H : In ?w (queue _) |- _ => learn 0 w (Queue w H)
      | H : handing (pcs _ ?u) = Some ?w |- _ => learn 1 u (Hand u w H)
      | H : pcs _ ?u = USig ?w |- _ => learn 2 u (Usig u w H)
      | H : pcs _ ?u = USig ?w |- _ => learn 3 u (usig_hand _ _ H)
      | H : handing (pcs _ ?u) = Some ?w, K : handing (pcs _ ?v) = Some ?x |- _ =>
          tryif unify u v then fail else assert (u = v) by exact (One u v w x H K); subst
      | H : qlock _ = true |- _ => learn 4 0 (Qlock H)
      | H : waits (pcs _ ?u) |- _ => learn 5 u (waits_T _ H)
      | H : waitsT (pcs _ ?u), K : signaled _ ?u = true |- _ => learn 6 u (Sig u H K)
      | H : ownPc (pcs _ ?u) _ |- _ => learn 7 u (Own u H)
      | H : waits (pcs _ ?u) |- _ => learn 8 u (Wait u H)
      | H : owner _ = Some ?u |- _ => learn 9 u (Just u H)
      | H : owner _ = None |- _ => learn 10 0 (Free H)
      | H : owner _ = None |- _ => learn 11 0 (Lost H)
      | H : leaving (pcs _ ?u) |- _ => learn 12 u (Leave u H)
      | H : handing (pcs _ ?u) = Some ?w |- _ => learn 20 u (hand_own _ (held s u) _ H)
      | H : pcs _ ?u = LDone |- _ => learn 21 u (ldone_own _ (held s u) H)
      | H : noTry, K : noTry -> ?x <> ?x |- _ => destruct (K H eq_refl)
      | Q : (forall a b, queue _ = a :: b -> _), E : queue _ = ?a :: ?b |- _ => learn 24 a (Q a b E)
      | E : queue _ = ?a :: ?b, H : In ?x ?b |- _ => learn 22 x (eq_ind_r (fun q => In x q) (or_intror H : In x (a :: b)) E)
      | E : queue _ = ?a :: ?b, H : In ?x (queue _) |- _ => learn 23 x (eq_ind _ (fun q => In x q) H _ E)
      | E : queue _ = [], H : In ?x (queue _) |- _ => rewrite E in H; destruct H
      | H : In _ (_ :: _) |- _ => destruct H
      | H : True -> _ |- _ => specialize (H I)
      | H : False -> _ |- _ => clear H
      | O : (forall v b, handing (pcs ?s v) = Some b -> ?t = v), H : handing (pcs ?s ?v) = Some ?b |- _ =>
          tryif unify t v then fail else (assert (t = v) by exact (O _ _ H); subst)
      | H : 0 < held ?s ?t -> _, K : 0 < held ?s ?t |- _ => specialize (H K)
      | H : In _ (_ ++ _) |- _ => apply in_app_or in H
      | H : In _ (remove _ _ _) |- _ => apply in_remove in H
      | H : In _ [] |- _ => destruct H
      | H : In _ [_] |- _ => destruct H
      | H : _ \/ _ |- _ => destruct H
      end).
  Lemma rec_frame p h r r' : recOk p h r -> ~ ownPc p h -> recOk p h r'.
  Proof. destruct p; cbn; try tauto; intros; lia. Qed.
  Ltac fin Own Rec EP :=
    fs; eqs; norm EP; split_all; cbn [ownPc waits waitsT handing leaving recOk];
    rewrite ?in_app_iff; cbn [In] in *;
    first [ solve [auto | congruence | qlia]
          | match goal with |- _ /\ _ => split; solve [fin Own Rec EP] end
          | match goal with |- _ <> _ => intro; solve [fin Own Rec EP] end
          | match goal with |- recOk _ _ _ => eapply rec_frame; [apply Rec|]; let O := fresh in intro O; apply Own in O; solve [fin Own Rec EP] end
          | match goal with |- forall _, _ => intros; solve [fin Own Rec EP] end
          | match goal with |- _ \/ _ => first [left; solve [fin Own Rec EP] | right; solve [fin Own Rec EP]] end
          | match goal with x : nat |- exists _, _ => exists x; solve [fin Own Rec EP] end ].

  Ltac split_on x M :=
    let E := fresh "E" in let y := fresh "y" in
    assert (E : exists y, x = y) by eauto; destruct E as [y E]; rewrite E in M; destruct y; try discriminate M.

  Lemma move_inv t c s s' : inv s -> (noTry -> c <> CTry) -> move t c s = Some s' -> inv s'.
  Proof.
    intros [Own Sig Hand Usig One Qlock Nodup Queue Wait Just Rec Free Leave Try Lost] NT M. unfold move in M.
    pose proof (Own t) as OwnT. pose proof (Rec t) as RecT. pose proof (Wait t) as WaitT. pose proof (Sig t) as SigT.
    pose proof (Leave t) as LeaveT. pose proof (fun w => Hand t w) as HandT. pose proof (fun v a => One t v a) as OneT.
    pose proof (Just t) as JustT. pose proof (Queue t) as QueueT. pose proof (fun w => Usig t w) as UsigT. pose proof (fun H => Try H t) as TryT.
    assert (QN : forall a b, queue s = a :: b -> ~ In a b /\ NoDup b /\ In a (queue s)).
    { intros a b E. split; [|split]; [| |rewrite E; left; reflexivity]; rewrite E in Nodup; inversion Nodup; assumption. }
    assert (HD : held s t = 0 \/ 0 < held s t) by lia.
    destruct (pcs s t) as [| | | | | | | | | | | | | |w|w|w| | |] eqn:EP; cbn [ownPc waits waitsT handing leaving recOk] in *.
    1: destruct c; try discriminate. 
    all: try specialize (HandT _ eq_refl).
    all: try (match type of HandT with _ /\ _ => idtac end; pose proof (fun v b => OneT v _ b eq_refl) as OneV).
    all: try specialize (UsigT _ eq_refl).
    all: repeat match type of M with
         | context [1 <? ?x] => destruct (Nat.ltb_spec 1 x)
         | context [0 <? ?x] => destruct (Nat.ltb_spec 0 x); try discriminate M
         | match ?x with _ => _ end = _ => split_on x M
         | context [match queue ?s with _ => _ end] => let x := constr:(queue s) in split_on x M
         end; injection M as <-.
    all: constructor.
    all: try solve [cbn [setPc setOwner setRec setQueue setSig setHeld done queue]; first [apply nodup_rm; assumption
      | apply nodup_snoc; [assumption|]; let H := fresh in intros H; apply QueueT in H; destruct H as [[[] _]|H]; discriminate H]].
    all: intros; fs; eqs; norm EP; rdc; split_all; try solve [eauto 2 | congruence | qlia].
    all: try match goal with Q : NoDup (queue ?s) |- _ => solve [chain s Own Sig Hand Usig One Qlock Queue Wait Just Free Leave Lost EP; fin Own Rec EP] end.
    - destruct (Lost H) as [L|[u L]].
      + left. intros w I. destruct (Nat.eqb_spec w t); [discriminate|]. apply in_app_or in I as [I|[I|[]]]; [auto|congruence].
      + right. exists u. destruct (Nat.eqb_spec u t) as [->|]; [rewrite EP in L; destruct L|exact L].
    - destruct (Wait t0 H) as [I|[I|[u I]]]; [left; apply in_in_remove; auto|auto|].
      right. right. exists u. destruct (Nat.eqb_spec u t) as [->|]; [rewrite EP in I; discriminate I|exact I].
    - destruct (Lost H) as [L|[u L]].
      + left. intros w I. destruct (Nat.eqb_spec w t); [discriminate|]. apply in_remove in I as [I _]. auto.
      + right. exists u. destruct (Nat.eqb_spec u t) as [->|]; [rewrite EP in L; destruct L|exact L].
    - destruct (Wait t0 H) as [I|[I|[u I]]]; [left; apply in_in_remove; auto|auto|].
      right. right. exists u. destruct (Nat.eqb_spec u t) as [->|]; [rewrite EP in I; discriminate I|exact I].
    - assert (I : In t (queue s)) by (rewrite E0; right; exact H). destruct (QueueT I) as [[[] _]|Q]. discriminate Q.
    - destruct (Wait t0 H) as [I|[I|[u I]]]; [|auto|].
      + rewrite E0 in I. destruct I as [->|I]; [|auto]. right. right. exists t. rewrite Nat.eqb_refl. reflexivity.
      + destruct (Hand _ _ I) as [Q _]. congruence.
    - left. intros w I. rewrite E in I. destruct I.
  Qed.

  Lemma run_inv sched s : inv s -> (noTry -> Forall (fun tc => snd tc <> CTry) sched) -> inv (run sched s).
  Proof.
    revert s. induction sched as [|[t c] r IH]; intros s V F; [exact V|]. cbn [run].
    assert (F1 : noTry -> c <> CTry) by (intros N; specialize (F N); apply Forall_cons_iff in F as [F _]; exact F).
    assert (F2 : noTry -> Forall (fun tc => snd tc <> CTry) r) by (intros N; specialize (F N); apply Forall_cons_iff in F as [_ F]; exact F).
    destruct (move t c s) as [s'|] eqn:M; [|auto]. apply IH; [|exact F2]. eapply move_inv; eauto.
  Qed.
End Inv.
