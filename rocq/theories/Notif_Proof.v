(** Proofs about notifiers: the invariant of the histories *)
From Verif Require Import Common Notif_Spec Notif_Model.

(** * Open and closed calls in a history *)
Definition opn (B : ev -> Prop) (t : nat) (w : what) (l : history) : Prop :=
  exists b c, l = b ++ Start t w :: c /\ ~ In (End t) b /\ forall e, In e b -> ~ B e.
Definition cls (B : ev -> Prop) (P : what -> Prop) (l : history) : Prop :=
  exists a b c t w, P w /\ l = a ++ End t :: b ++ Start t w :: c /\ ~ In (End t) b /\ forall e, In e (a ++ b) -> ~ B e.
Lemma opn_cons B t w e l : opn B t w (e :: l) -> e = Start t w \/ (e <> End t /\ ~ B e /\ opn B t w l).
Proof.
  intros (b & c & E & NE & NB). destruct b as [|x b]; cbn in E; injection E as -> ->; [left; reflexivity|]. right. split; [intros ->; apply NE; cbn; auto|]. split; [apply NB; cbn; auto|].
  exists b, c. split; [reflexivity|]. split; [intros I; apply NE; cbn; auto|]. intros y I. apply NB. cbn. auto.
Qed.
Lemma cls_cons B P e l : cls B P (e :: l) -> (~ B e /\ cls B P l) \/ exists t w, P w /\ e = End t /\ opn B t w l.
Proof.
  intros (a & b & c & t & w & HP & E & NE & NB). destruct a as [|x a]; cbn in E; injection E as -> ->.
  - right. exists t, w. split; [exact HP|]. split; [reflexivity|]. exists b, c. auto.
  - left. split; [apply NB; cbn; auto|]. exists a, b, c, t, w. split; [exact HP|]. split; [reflexivity|]. split; [exact NE|]. intros y I. apply NB. cbn. auto.
Qed.
Definition isN (w : what) : Prop := exists r, w = ANotify r.
Definition RR (e : ev) : Prop := e = Ret RReset.
Definition FF (e : ev) : Prop := False.
Definition TT (w : what) : Prop := True.
Lemma told_cls l : told l <-> cls RR isN l.
Proof.
  unfold told, cls, isN, RR. split.
  - intros (a & b & c & t & r & E & NE & NR). exists a, b, c, t, (ANotify r). split; [eauto|]. split; [exact E|]. split; [exact NE|]. intros e I ->. tauto.
  - intros (a & b & c & t & w & (r & ->) & E & NE & NR). exists a, b, c, t, r. split; [exact E|]. split; [exact NE|]. intros I. exact (NR _ I eq_refl).
Qed.
Lemma toldf_cls l : told_finish l <-> cls FF (eq AFinish) l.
Proof.
  unfold told_finish, cls, FF. split.
  - intros (a & b & c & t & E & NE). exists a, b, c, t, AFinish. auto.
  - intros (a & b & c & t & w & <- & E & NE & _). exists a, b, c, t. auto.
Qed.
Lemma woken_cls l : woken l <-> cls slept TT l.
Proof.
  unfold woken, cls, TT. split.
  - intros (a & b & c & t & w & E & NE & NR). exists a, b, c, t, w. auto.
  - intros (a & b & c & t & w & _ & E & NE & NR). exists a, b, c, t, w. auto.
Qed.

(** * What the history says about ended calls *)
Record okl (l : history) : Prop := mkO {
  o_wait : forall a b l', l = a ++ Ret (RWait b) :: l' -> (b = true -> maybe_told l') /\ (told l' -> b = true) /\
    (b = false -> exists m x d, during (CWait m x) d l' /\ ((x = true /\ asked_finish l') \/ (m = true /\ In Expired d)));
  o_deep : forall a l', l = a ++ Ret RDeep :: l' -> exists d, during (CDeep true) d l' /\ In Expired d;
  o_sleep : forall a b o l', l = a ++ Ret (RSleep b o) :: l' -> exists m d, during (CSleep m) d l' /\ (b = true -> m = true /\ In Expired d) }.

Definition inN (p : kpc) : Prop := match p with N1 _ | N2 _ | N3 _ => True | _ => False end.
Definition inS (p : kpc) : Prop := match p with S1 _ | S2 | S3 _ => True | _ => False end.
(** the thread still has to look at the semaphore, or will post it *)
Definition willPost (p : kpc) : Prop := match p with N1 _ | N2 _ | N3 _ | F1 | S1 _ | S2 | S3 false => True | _ => False end.
(** the owner saw no signal and has not slept yet *)
Definition inQ (o : opc) : Prop := match o with W2 _ _ | Sl (XWait _ _) => True | _ => False end.
Definition inQf (o : opc) : Prop := match o with Sl (XWait _ true) => True | _ => False end.
Definition inR (o : opc) : Prop := match o with Free | Sl (XSleep _) => True | _ => False end.
Definition pend (t : nat) (r : Z) (l : history) : Prop := exists a c, l = a ++ Start t (ANotify r) :: c /\ ~ In (End t) a.
Definition pk (t : nat) (p : kpc) (l : history) : Prop := match p with N1 r | N2 r | N3 r => pend t r l | _ => True end.
Definition place (s : st) : Prop :=
  match own s with
  | Free => True
  | W2 x tm => match x with XWait m true => exists d, during (CWait m true) d (log s) /\ (tm = true -> m = true /\ In Expired d) | _ => False end
  | W1 x tm => match x with XWait m f => exists d, during (CWait m f) d (log s) /\ (tm = true -> m = true /\ In Expired d) | _ => False end
  | W3 => exists m f d, during (CWait m f) d (log s) /\ (sig s = true \/ (f = true /\ fin s = true) \/ (m = true /\ In Expired d))
  | Sl x | Dr x => exists d, during (match x with XWait m f => CWait m f | XSleep m => CSleep m | XDeep m => CDeep m end) d (log s)
  end.
Record Inv (s : st) : Prop := mkI {
  i_may : sig s = true -> maybe_told (log s);
  i_pend : forall t, pk t (pcs s t) (log s);
  i_beg : forall t r, opn RR t (ANotify r) (log s) -> (inN (pcs s t) \/ (sig s = true /\ inS (pcs s t))) /\ (inQ (own s) -> willPost (pcs s t) \/ 0 < sem s);
  i_told : cls RR isN (log s) -> sig s = true /\ (inQ (own s) -> 0 < sem s);
  i_begf : forall t, opn FF t AFinish (log s) -> (pcs s t = F1 \/ (fin s = true /\ inS (pcs s t))) /\ (inQf (own s) -> willPost (pcs s t) \/ 0 < sem s);
  i_toldf : cls FF (eq AFinish) (log s) -> fin s = true /\ (inQf (own s) -> 0 < sem s);
  i_fin : fin s = true -> asked_finish (log s);
  i_pendf : forall t, pcs s t = F1 -> asked_finish (log s);
  i_fresh : forall t w, inR (own s) -> opn slept t w (log s) -> pcs s t = S3 true -> 0 < sem s;
  i_woken : inR (own s) -> cls slept TT (log s) -> 0 < sem s;
  i_place : place s;
  i_log : okl (log s) }.

(** * Lemmas on histories *)
Lemma may_cons e l : maybe_told l -> e <> Ret RReset -> maybe_told (e :: l).
Proof.
  intros (a & c & t & r & -> & H) NE. exists (e :: a), c, t, r. split; [reflexivity|]. intros a1 a2 E. destruct a1 as [|x a1]; cbn in E; injection E as E1 E2; [congruence|]. exact (H _ _ E2).
Qed.
Lemma pend_may t r l : pend t r l -> maybe_told l.
Proof. intros (a & c & -> & NE). exists a, c, t, r. split; [reflexivity|]. intros a1 a2 -> I. apply NE. apply in_or_app. right. right. exact I. Qed.
Lemma pend_cons t r e l : pend t r l -> e <> End t -> pend t r (e :: l).
Proof. intros (a & c & -> & NE) D. exists (e :: a), c. split; [reflexivity|]. cbn. intuition congruence. Qed.
Lemma pk_cons t p e l : pk t p l -> e <> End t -> pk t p (e :: l).
Proof. destruct p; cbn; auto; apply pend_cons. Qed.
Lemma pend_new t r l : pend t r (Start t (ANotify r) :: l).
Proof. exists [], l. cbn. auto. Qed.
Lemma asked_cons e l : asked_finish l -> asked_finish (e :: l).
Proof. intros (t & I). exists t. cbn. auto. Qed.
Lemma asked_new t l : asked_finish (Start t AFinish :: l).
Proof. exists t. cbn. auto. Qed.
Lemma during_cons c d e l : during c d l -> (forall x, e <> Call x) -> during c (e :: d) (e :: l).
Proof. intros (r & -> & H) N. exists r. split; [reflexivity|]. cbn. intros c' [E|I]; [exact (N _ E)|exact (H _ I)]. Qed.
Lemma during_new c l : during c [] (Call c :: l).
Proof. exists l. cbn. auto. Qed.
Definition plain (e : ev) : Prop := match e with Ret (RWait _) | Ret RDeep | Ret (RSleep _ _) => False | _ => True end.
Lemma okl_plain e l : okl l -> plain e -> okl (e :: l).
Proof.
  intros [O1 O2 O3] P. split.
  - intros a b l' E. destruct a as [|x a]; cbn in E; injection E as E1 E2; [subst; destruct P|exact (O1 _ _ _ E2)].
  - intros a l' E. destruct a as [|x a]; cbn in E; injection E as E1 E2; [subst; destruct P|exact (O2 _ _ E2)].
  - intros a b o l' E. destruct a as [|x a]; cbn in E; injection E as E1 E2; [subst; destruct P|exact (O3 _ _ _ _ E2)].
Qed.
Lemma okl_wait b l : okl l -> ((b = true -> maybe_told l) /\ (told l -> b = true) /\
    (b = false -> exists m x d, during (CWait m x) d l /\ ((x = true /\ asked_finish l) \/ (m = true /\ In Expired d)))) -> okl (Ret (RWait b) :: l).
Proof.
  intros [O1 O2 O3] P. split.
  - intros a b' l' E. destruct a as [|x a]; cbn in E; injection E as E1 E2; [subst; exact P|exact (O1 _ _ _ E2)].
  - intros a l' E. destruct a as [|x a]; cbn in E; [discriminate|]. injection E as E1 E2. exact (O2 _ _ E2).
  - intros a b' o l' E. destruct a as [|x a]; cbn in E; [discriminate|]. injection E as E1 E2. exact (O3 _ _ _ _ E2).
Qed.
Lemma okl_deep d l : okl l -> during (CDeep true) d l -> In Expired d -> okl (Ret RDeep :: l).
Proof.
  intros [O1 O2 O3] P Q. split.
  - intros a b' l' E. destruct a as [|x a]; cbn in E; [discriminate|]. injection E as E1 E2. exact (O1 _ _ _ E2).
  - intros a l' E. destruct a as [|x a]; cbn in E; injection E as E2; [subst; eauto|]. exact (O2 _ _ H).
  - intros a b' o l' E. destruct a as [|x a]; cbn in E; [discriminate|]. injection E as E1 E2. exact (O3 _ _ _ _ E2).
Qed.
Lemma okl_sleep b o l : okl l -> (exists m d, during (CSleep m) d l /\ (b = true -> m = true /\ In Expired d)) -> okl (Ret (RSleep b o) :: l).
Proof.
  intros [O1 O2 O3] P. split.
  - intros a b' l' E. destruct a as [|x a]; cbn in E; [discriminate|]. injection E as E1 E2. exact (O1 _ _ _ E2).
  - intros a l' E. destruct a as [|x a]; cbn in E; [discriminate|]. injection E as E1 E2. exact (O2 _ _ E2).
  - intros a b' o' l' E. destruct a as [|x a]; cbn in E; injection E; intros; subst; [exact P|eapply O3; reflexivity].
Qed.

Lemma init_ok : Inv init.
Proof.
  split; cbn; try discriminate; auto; try tauto.
  - intros t r (b & c & E & _). destruct b; discriminate.
  - intros (a & b & c & t & w & _ & E & _). destruct a; discriminate.
  - intros t (b & c & E & _). destruct b; discriminate.
  - intros (a & b & c & t & w & _ & E & _). destruct a; discriminate.
  - intros _ (a & b & c & t & w & _ & E & _). destruct a; discriminate.
  - split; intros a; destruct a; discriminate.
Qed.

(** * The steps keep the invariant *)
Ltac hist := repeat match goal with
 | H : opn _ _ _ (_ :: _) |- _ => apply opn_cons in H; destruct H as [H|(?&?&H)]
 | H : cls _ _ (_ :: _) |- _ => apply cls_cons in H; destruct H as [(?&H)|(?&?&?&?&H)]
 end.
Ltac spec := repeat match goal with
 | A : forall t r, opn RR t (ANotify r) ?l -> _, H : opn RR ?t (ANotify ?r) ?l |- _ => pose proof (A _ _ H); clear H
 | A : forall t, opn FF t AFinish ?l -> _, H : opn FF ?t AFinish ?l |- _ => pose proof (A _ H); clear H
 | A : cls ?B ?P ?l -> _, H : cls ?B ?P ?l |- _ => specialize (A H)
 | A : inR _ -> cls ?B ?P ?l -> _, H : cls ?B ?P ?l |- _ => let K := fresh in assert (K := fun x => A x H); clear H
 | A : forall t w, inR _ -> opn slept t w ?l -> _, H : opn slept ?t ?w ?l |- _ => let K := fresh in assert (K := fun x => A _ _ x H); clear H
 end.
Ltac fin_ := first [discriminate | congruence | tauto | (intuition (congruence || lia)) ].
Ltac gen := repeat match goal with
 | |- maybe_told (_ :: _) => apply may_cons; [|discriminate]
 | |- maybe_told _ => solve [auto]
 | |- pk _ _ (_ :: _) => apply pk_cons; [|congruence]
 | |- pk _ _ _ => solve [auto]
 | |- okl (_ :: _) => apply okl_plain; [|exact I]
 | |- okl _ => solve [auto]
 | |- asked_finish (_ :: _) => apply asked_cons
 | |- asked_finish _ => solve [eauto]
 end.
Ltac main := split; cbn; unfold place; cbn; intros; hist; spec; try fin_; gen.
Lemma inN_will p : inN p -> willPost p.
Proof. destruct p; cbn; tauto. Qed.
Lemma f1_will p : p = F1 -> willPost p.
Proof. intros ->. exact I. Qed.
Lemma ostep_ok e s s' : Inv s -> ostep e s = Moved s' -> Inv s'.
Proof.
  intros [I1 I2 I3 I4 I5 I6 I7 I8 I9 I10 I11 I12] E. destruct s as [sg rs al sm sr fi o pc l]. unfold ostep, use, give, awake in E. cbn in *. unfold place in I11; cbn in I11.
  destruct o as [|x tm|x tm| |x|x], e as [c| | |]; try discriminate.
  - destruct c as [m x|m|m| | |]; try (destruct al; [|discriminate]); injection E as <-; main.
    + exists []. split; [apply during_new|discriminate].
    + exists []. apply during_new.
    + exists []. apply during_new.
  - destruct al; [|discriminate]. destruct x as [m f| |]; [|destruct I11|destruct I11]. destruct I11 as (d & D & TM). cbn in E.
    destruct sg, f, tm; injection E as <-; main; eauto 6; try (intuition (auto using inN_will; congruence)).
    exists m, false, d; auto.
  - destruct x as [m [|]| |]; try (destruct I11; fail). destruct I11 as (d & D & TM). cbn in E. destruct fi, tm; injection E as <-; main; eauto 8; try (intuition (auto using f1_will; congruence)).
  - destruct al; [|discriminate]. injection E as <-. main. apply okl_wait; [exact I12|]. destruct I11 as (m & f & d & D & H). split; [exact I1|]. split; [intros T; apply I4, told_cls, T|]. intros ->. exists m, f, d. split; [exact D|]. destruct H as [H|[[H1 H2]|H]]; [discriminate|left; auto|right; exact H].
  - destruct sm; [discriminate|]. injection E as <-. destruct x as [m f|m|m]; cbn in *; main.
  - destruct I11 as (d & D). destruct x as [[|] f|[|]|[|]]; cbn in *; try discriminate; (destruct sm; [|discriminate]); injection E as <-; main.
    + exists (Expired :: d). split; [apply during_cons; [exact D|discriminate]|]. cbn. auto.
    + apply okl_sleep; [apply okl_plain; [exact I12|exact I]|]. exists true, (Expired :: d). split; [apply during_cons; [exact D|discriminate]|]. cbn. auto.
    + apply (okl_deep (Expired :: d)); [apply okl_plain; [exact I12|exact I]| |left; reflexivity]. apply during_cons; [exact D|discriminate].
  - destruct I11 as (d & D). destruct x as [[|] f|[|]|[|]]; cbn in *; injection E as <-; main; eauto.
    + exists d. split; [exact D|discriminate].
    + apply okl_sleep; [exact I12|]. exists true, d. split; [exact D|discriminate].
  - destruct I11 as (d & D). destruct sm; destruct x as [m f|m|m]; cbn in *; injection E as <-; main; eauto.
    + exists d. split; [exact D|discriminate].
    + apply okl_sleep; [exact I12|]. exists m, d. split; [exact D|discriminate].
Qed.

Lemma place_mono s s' : place s -> own s' = own s -> (sig s = true -> sig s' = true) -> (fin s = true -> fin s' = true) ->
  (log s' = log s \/ exists e, log s' = e :: log s /\ forall x, e <> Call x) -> place s'.
Proof.
  unfold place. intros H -> S1 S2 L.
  assert (K : forall c d, during c d (log s) -> exists d', during c d' (log s') /\ (In Expired d -> In Expired d')).
  { intros c d D. destruct L as [->|(e & -> & NC)]; [eauto|]. exists (e :: d). split; [apply during_cons; auto|cbn; auto]. }
  destruct (own s) as [|x tm|x tm| |x|x]; auto.
  - destruct x as [m f| |]; auto. destruct H as (d & D & T). destruct (K _ _ D) as (d' & D' & X). exists d'. intuition.
  - destruct x as [m [|]| |]; auto. destruct H as (d & D & T). destruct (K _ _ D) as (d' & D' & X). exists d'. intuition.
  - destruct H as (m & f & d & D & T). destruct (K _ _ D) as (d' & D' & X). exists m, f, d'. intuition.
  - destruct H as (d & D). destruct (K _ _ D) as (d' & D' & X). eauto.
  - destruct H as (d & D). destruct (K _ _ D) as (d' & D' & X). eauto.
Qed.
Ltac eqs P := repeat (match goal with
  | |- context [if ?u =? ?v then _ else _] => destruct (Nat.eqb_spec u v) as [EQ|EQ]; [try subst u; rewrite ?P in *|]
  | H : context [if ?u =? ?v then _ else _] |- _ => destruct (Nat.eqb_spec u v) as [EQ|EQ]; [try subst u; rewrite ?P in *|] end).
Lemma kstep_ok t e s s' : Inv s -> kstep t e s = Moved s' -> Inv s'.
Proof.
  intros [I1 I2 I3 I4 I5 I6 I7 I8 I9 I10 I11 I12] E.
  assert (PL : place s').
  { apply (place_mono s); auto; clear I11; unfold kstep, use in E; destruct (pcs s t) as [|r|r|r| |r| |[|]], e as [a|]; try discriminate; try (destruct (alive s); [|discriminate]); injection E as <-; cbn; auto; right; eexists; (split; [reflexivity|discriminate]). }
  destruct s as [sg rs al sm sr fi o pc l]. unfold kstep, use in E. cbn in *. clear I11.
  pose proof (I2 t) as PK.
  destruct (pc t) as [|r|r|r| |r| |[|]] eqn:P, e as [a|]; try discriminate; try (destruct al; [|discriminate]); try (destruct a); try (destruct sm eqn:SM); injection E as <-.
  all: split; [| | | | | | | | | |exact PL|]; cbn; unfold isN, TT in *; intros; hist; repeat match goal with H : exists r, _ = ANotify r |- _ => destruct H as [? ->] | H : AFinish = ?w |- _ => subst w | H : End _ = End _ |- _ => injection H as <- end; eqs P;
    spec; rewrite ?P in *; cbn in *; try fin_; try apply asked_new; gen.
  all: first [apply pend_new | exact (pend_may _ _ _ PK)].
Qed.
Lemma step_ok e s s' : Inv s -> step e s = Moved s' -> Inv s'.
Proof. destruct e as [e|t e]; [apply ostep_ok|apply kstep_ok]. Qed.
Lemma run_ok l : forall s s', Inv s -> run l s = Moved s' -> Inv s'.
Proof.
  induction l as [|e l IH]; intros s s' I E; cbn in E; [injection E as <-; exact I|]. destruct (step e s) as [s1| |] eqn:E1; try discriminate. exact (IH _ _ (step_ok _ _ _ I E1) E).
Qed.
Lemma reach l s : run l init = Moved s -> Inv s.
Proof. apply run_ok, init_ok. Qed.

(** * The owner goes on alone *)
Definition inWait (o : opc) : Prop := match o with W1 (XWait _ _) _ | W2 (XWait _ _) _ | W3 | Sl (XWait _ _) | Dr (XWait _ _) => True | _ => False end.
Fixpoint alone (n : nat) (s : st) : res := match n with O => Moved s | S n => match ostep Go s with Moved s1 => alone n s1 | x => x end end.
Lemma alone_run n : forall s, alone n s = run (repeat (Own Go) n) s.
Proof. induction n as [|n IH]; intros s; cbn; [reflexivity|]. destruct (ostep Go s); auto. Qed.
Definition ends (b : option bool) (s : st) : Prop := exists n s' c, alone n s = Moved s' /\ log s' = Ret (RWait c) :: log s /\ (match b with Some b => c = b | None => True end).
Lemma ends_step b s s1 : ostep Go s = Moved s1 -> log s1 = log s -> ends b s1 -> ends b s.
Proof. intros E L (n & s' & c & R & L' & B). exists (S n), s', c. cbn. rewrite E, L' , L. auto. Qed.
Lemma ends_w3 s : own s = W3 -> alive s = true -> ends (Some (sig s)) s.
Proof. intros O A. exists 1, (note (goto s Free) (Ret (RWait (sig s)))), (sig s). cbn. unfold ostep, use. rewrite O, A. cbn. auto. Qed.
Lemma ends_w1 s x tm : own s = W1 x tm -> alive s = true -> sig s = true -> ends (Some true) s.
Proof.
  intros O A S. apply (ends_step _ s (goto s W3)); [unfold ostep, use; rewrite O, A, S; reflexivity|reflexivity|]. rewrite <- S. apply (ends_w3 (goto s W3)); [reflexivity|exact A].
Qed.
Lemma ends_drain b m f : forall n s, own s = Dr (XWait m f) -> sem s = n -> (forall s', own s' = W1 (XWait m f) false -> log s' = log s -> alive s' = alive s -> sig s' = sig s -> fin s' = fin s -> ends b s') -> ends b s.
Proof.
  induction n as [|n IH]; intros s O N K.
  - apply (ends_step _ s (goto s (W1 (XWait m f) false))); [unfold ostep; rewrite O, N; reflexivity|reflexivity|]. apply K; reflexivity.
  - apply (ends_step _ s (setSem s n)); [unfold ostep; rewrite O, N; reflexivity|reflexivity|]. apply IH; [exact O|reflexivity|]. intros s' O' L' A' S' F'. apply K; auto.
Qed.
Lemma ends_sl b m f s : own s = Sl (XWait m f) -> 0 < sem s -> (forall s', own s' = W1 (XWait m f) false -> log s' = log s -> alive s' = alive s -> sig s' = sig s -> fin s' = fin s -> ends b s') -> ends b s.
Proof.
  intros O N K. destruct (sem s) as [|n] eqn:E; [lia|]. apply (ends_step _ s (goto (setSem s n) (Dr (XWait m f)))); [unfold ostep; rewrite O, E; reflexivity|reflexivity|].
  apply (ends_drain _ m f n); [reflexivity|reflexivity|]. exact K.
Qed.
Lemma live s : Inv s -> alive s = true -> inWait (own s) -> told (log s) -> ends (Some true) s.
Proof.
  intros IV A W T. destruct (i_told _ IV (proj1 (told_cls _) T)) as [SG Q]. destruct (own s) as [|x tm|x tm| |x|x] eqn:O; try (destruct W; fail).
  - exact (ends_w1 s x tm O A SG).
  - destruct x as [m f| |]; try (destruct W; fail). destruct (fin s || tm)%bool eqn:B.
    + apply (ends_step _ s (goto s W3)); [unfold ostep; rewrite O; destruct (fin s), tm; try discriminate; reflexivity|reflexivity|]. rewrite <- SG. exact (ends_w3 (goto s W3) eq_refl A).
    + apply (ends_step _ s (goto s (Sl (XWait m f)))); [unfold ostep; rewrite O; destruct (fin s), tm; try discriminate; reflexivity|reflexivity|]. apply (ends_sl _ m f); [reflexivity|apply Q; exact I|].
      intros s' O' L' A' S' F'. apply (ends_w1 s' _ _ O'); [rewrite A'; exact A|rewrite S'; exact SG].
  - rewrite <- SG. exact (ends_w3 s O A).
  - destruct x as [m f| |]; try (destruct W; fail). apply (ends_sl _ m f); [exact O|apply Q; exact I|]. intros s' O' L' A' S' F'. apply (ends_w1 s' _ _ O'); [rewrite A'; exact A|rewrite S'; exact SG].
  - destruct x as [m f| |]; try (destruct W; fail). apply (ends_drain _ m f (sem s)); [exact O|reflexivity|]. intros s' O' L' A' S' F'. apply (ends_w1 s' _ _ O'); [rewrite A'; exact A|rewrite S'; exact SG].
Qed.
(** the owner runs a wait that ends for the finish flag *)
Definition exitWait (s : st) : Prop := exists m a, during (CWait m true) a (log s).
Lemma during_det c d c' d' l : during c d l -> during c' d' l -> c = c' /\ d = d'.
Proof.
  intros (r & -> & N) (r' & E & N'). revert d' E N'. induction d as [|x d IH]; intros [|y d'] E N'; cbn in E; injection E as E1 E2.
  - auto.
  - subst y. exfalso. apply (N' c). cbn. auto.
  - subst x. exfalso. apply (N c'). cbn. auto.
  - subst y. destruct (IH (fun c0 I => N c0 (or_intror I)) d' E2 (fun c0 I => N' c0 (or_intror I))) as [-> ->]. auto.
Qed.
Lemma ends_any b s : ends (Some b) s -> ends None s.
Proof. intros (n & s' & c & R & L & _). exists n, s', c. auto. Qed.
Lemma live_w1f s m tm : own s = W1 (XWait m true) tm -> alive s = true -> fin s = true -> ends None s.
Proof.
  intros O A F. destruct (sig s) eqn:SG; [exact (ends_any _ _ (ends_w1 s _ tm O A SG))|].
  apply (ends_step _ s (goto s (W2 (XWait m true) tm))); [unfold ostep, use; rewrite O, A, SG; reflexivity|reflexivity|].
  apply (ends_step _ _ (goto s W3)); [unfold ostep; cbn; rewrite F; reflexivity|reflexivity|]. exact (ends_any _ _ (ends_w3 (goto s W3) eq_refl A)).
Qed.
Lemma livef s : Inv s -> alive s = true -> inWait (own s) -> exitWait s -> told_finish (log s) -> ends None s.
Proof.
  intros IV A W (m0 & a & D0) T. destruct (i_toldf _ IV (proj1 (toldf_cls _) T)) as [F Q]. pose proof (i_place _ IV) as PL. unfold place in PL. destruct (own s) as [|x tm|x tm| |x|x] eqn:O; try (destruct W; fail).
  - destruct x as [m f| |]; try (destruct W; fail). destruct PL as (d & D & _). destruct (during_det _ _ _ _ _ D0 D) as [E _]. injection E as -> <-. exact (live_w1f s _ _ O A F).
  - apply (ends_step _ _ (goto s W3)); [unfold ostep; rewrite O, F; reflexivity|reflexivity|]. exact (ends_any _ _ (ends_w3 (goto s W3) eq_refl A)).
  - exact (ends_any _ _ (ends_w3 s O A)).
  - destruct x as [m f| |]; try (destruct W; fail). destruct PL as (d & D). destruct (during_det _ _ _ _ _ D0 D) as [E _]. injection E as -> <-.
    apply (ends_sl _ m true); [exact O|apply Q; exact I|]. intros s' O' L' A' S' F'. apply (live_w1f s' _ _ O'); congruence.
  - destruct x as [m f| |]; try (destruct W; fail). destruct PL as (d & D). destruct (during_det _ _ _ _ _ D0 D) as [E _]. injection E as -> <-.
    apply (ends_drain _ m true (sem s)); [exact O|reflexivity|]. intros s' O' L' A' S' F'. apply (live_w1f s' _ _ O'); congruence.
Qed.

(** * The rules of use *)
Definition phase (s : st) : Prop :=
  (notifies (log s) = resets (log s) /\ sig s = false /\ forall t, ~ inN (pcs s t)) \/
  (notifies (log s) = S (resets (log s)) /\ sig s = true /\ (forall t, ~ inN (pcs s t)) /\ last_reason (log s) = Some (rsn s)) \/
  (notifies (log s) = S (resets (log s)) /\ sig s = false /\ exists t r,
     (pcs s t = N1 r \/ pcs s t = N2 r \/ (pcs s t = N3 r /\ rsn s = r)) /\ last_reason (log s) = Some r /\ forall u, inN (pcs s u) -> u = t).
Definition usesN (o : opc) : Prop := match o with W1 _ _ | W2 _ _ | W3 | Sl (XWait _ _) | Dr (XWait _ _) => True | _ => False end.
Record Dis (s : st) : Prop := mkD {
  d_alive : alive s = true <-> ~ destroyed (log s);
  d_phase : phase s;
  d_seen : seen (log s) -> sig s = true;
  d_dead : destroyed (log s) -> sig s = true /\ ~ usesN (own s) }.
Lemma init_dis : Dis init.
Proof. split; cbn; unfold phase; cbn; [tauto|left; auto|tauto|tauto]. Qed.
Lemma phase_same s s' : phase s -> notifies (log s') = notifies (log s) -> resets (log s') = resets (log s) -> last_reason (log s') = last_reason (log s) ->
  sig s' = sig s -> rsn s' = rsn s -> (forall t, pcs s' t = pcs s t) -> phase s'.
Proof.
  unfold phase. intros H -> -> -> -> -> P. destruct H as [(A & B & C)|[(A & B & C & D)|(A & B & t & r & C & D & E)]].
  - left. split; [exact A|]. split; [exact B|]. intros t. rewrite P. apply C.
  - right. left. split; [exact A|]. split; [exact B|]. split; [intros t; rewrite P; apply C|exact D].
  - right. right. split; [exact A|]. split; [exact B|]. exists t, r. rewrite P. split; [exact C|]. split; [exact D|]. intros u. rewrite P. apply E.
Qed.
Lemma ostep_dis e s s' : obeys (log s') -> (obeys (log s) -> Dis s) -> Inv s -> ostep e s = Moved s' -> Dis s'.
Proof.
  intros OB D IV E. assert (PL := i_place _ IV). unfold place in PL. unfold ostep, use, give, awake in E.
  destruct (own s) as [|x tm|x tm| |x|x] eqn:O, e as [c| | |]; try discriminate.
  all: try (destruct c); try (destruct (alive s) eqn:AL; [|discriminate]); try (destruct x as [m f|m|m]; cbn [timed exits] in *; try (destruct m)); try (destruct (sem s) eqn:SM; try discriminate); try discriminate;
    try (destruct PL; fail); injection E as <-; cbn in OB; assert (D0 : Dis s) by (apply D; tauto); destruct D0 as [D1 D2 D3 D4]; rewrite O in D4; cbn in D4;
    (split; cbn; unfold destroyed in *; cbn; [| |  |]).
  all: try (intuition (congruence || discriminate)).
  all: try (refine (phase_same s _ D2 _ _ _ _ _ _); cbn; auto; fail).
  all: try (destruct (sig s) eqn:SG; tauto).
  all: try (rewrite O; cbn; tauto).
  all: assert (SG : sig s = true) by tauto; destruct D2 as [(_ & B & _)|[(A & B & C & _)|(_ & B & _)]]; try congruence; left; cbn; auto.
Qed.
Lemma kstep_dis t e s s' : obeys (log s') -> (obeys (log s) -> Dis s) -> kstep t e s = Moved s' -> Dis s'.
Proof.
  intros OB D E. unfold kstep, use in E.
  assert (D0 : Dis s). { apply D. destruct (pcs s t) as [|r|r|r| |r| |[|]], e as [[| |]|]; try discriminate; try (destruct (alive s); [|discriminate]); injection E as <-; cbn in OB; tauto. }
  destruct D0 as [D1 D2 D3 D4].
  assert (OTH : ~ inN (pcs s t) -> sig s' = sig s -> rsn s' = rsn s -> notifies (log s') = notifies (log s) -> resets (log s') = resets (log s) -> last_reason (log s') = last_reason (log s) -> (forall u, u <> t -> pcs s' u = pcs s u) -> ~ inN (pcs s' t) -> phase s').
  { intros N SG RS A1 A2 A3 PC NP. unfold phase. rewrite A1, A2, A3, SG, RS. assert (X : forall u, inN (pcs s' u) -> inN (pcs s u)) by (intros u; destruct (Nat.eq_dec u t) as [->|Q]; [tauto|rewrite PC by exact Q; auto]).
    destruct D2 as [(A & B & C)|[(A & B & C & F)|(A & B & u & r & C & F & G)]].
    - left. split; [exact A|]. split; [exact B|]. intros u K. exact (C u (X u K)).
    - right. left. split; [exact A|]. split; [exact B|]. split; [intros u K; exact (C u (X u K))|exact F].
    - right. right. split; [exact A|]. split; [exact B|]. exists u, r. assert (u <> t) by (intros ->; apply N; destruct C as [C|[C|[C _]]]; rewrite C; exact I). rewrite PC by assumption. split; [exact C|]. split; [exact F|]. intros v K. exact (G v (X v K)). }
  destruct (pcs s t) as [|r|r|r| |r| |b] eqn:P, e as [a|]; try discriminate.
  - injection E as <-. cbn in OB. destruct OB as [OB1 OB2]. split.
    + cbn. unfold destroyed in *. cbn. rewrite D1. intuition discriminate.
    + destruct a as [r|r|].
      * destruct OB2 as [NR ND]. right. right. cbn. assert (SG : sig s = false /\ forall u, ~ inN (pcs s u)) by (destruct D2 as [D2|[D2|D2]]; [tauto|lia|lia]). destruct SG as [SG NN]. split; [lia|]. split; [exact SG|]. exists t, r. rewrite Nat.eqb_refl. split; [auto|]. split; [reflexivity|].
        intros u. destruct (Nat.eqb_spec u t); [auto|]. intros K. destruct (NN u K).
      * apply OTH; cbn; auto; [intros u Q; destruct (Nat.eqb_spec u t); congruence|rewrite Nat.eqb_refl; auto].
      * apply OTH; cbn; auto; [intros u Q; destruct (Nat.eqb_spec u t); congruence|rewrite Nat.eqb_refl; auto].
    + cbn. destruct a; auto.
    + cbn. unfold destroyed in *. cbn. intros [Q|Q]; [discriminate|]. auto.
  - destruct (alive s) eqn:AL; [|discriminate]. injection E as <-. split; cbn; [rewrite AL; exact D1| |exact D3|exact D4]. right. right. cbn.
    destruct D2 as [(_ & _ & C)|[(_ & _ & C & _)|(A & B & u & r' & C & F & G)]]; [exfalso; apply (C t); rewrite P; exact I|exfalso; apply (C t); rewrite P; exact I|].
    assert (t = u) as <- by (apply G; rewrite P; exact I). split; [exact A|]. split; [exact B|]. exists t, r'. rewrite Nat.eqb_refl. rewrite P in C. split; [right; left; destruct C as [C|[C|[C _]]]; congruence|]. split; [exact F|]. intros u. destruct (Nat.eqb_spec u t); auto.
  - destruct (alive s) eqn:AL; [|discriminate]. injection E as <-. split; cbn; [rewrite AL; exact D1| |exact D3|exact D4]. right. right. cbn.
    destruct D2 as [(_ & _ & C)|[(_ & _ & C & _)|(A & B & u & r' & C & F & G)]]; [exfalso; apply (C t); rewrite P; exact I|exfalso; apply (C t); rewrite P; exact I|].
    assert (t = u) as <- by (apply G; rewrite P; exact I). split; [exact A|]. split; [exact B|]. exists t, r'. rewrite Nat.eqb_refl. rewrite P in C. assert (r = r') as -> by (destruct C as [C|[C|[C _]]]; congruence). split; [auto|]. split; [exact F|]. intros u. destruct (Nat.eqb_spec u t); auto.
  - destruct (alive s) eqn:AL; [|discriminate]. injection E as <-. split; cbn; [rewrite AL; exact D1| |auto|intros Q; destruct (D4 Q); auto]. right. left. cbn.
    destruct D2 as [(_ & _ & C)|[(_ & _ & C & _)|(A & B & u & r' & C & F & G)]]; [exfalso; apply (C t); rewrite P; exact I|exfalso; apply (C t); rewrite P; exact I|].
    assert (t = u) as <- by (apply G; rewrite P; exact I). rewrite P in C. destruct C as [C|[C|[C R]]]; try congruence. injection C as ->. split; [exact A|]. split; [reflexivity|]. split; [|rewrite R; exact F].
    intros u. destruct (Nat.eqb_spec u t); [auto|]. intros K. apply n. auto.
  - injection E as <-. split; cbn; auto. apply OTH; cbn; auto; [intros u Q; destruct (Nat.eqb_spec u t); congruence|rewrite Nat.eqb_refl; auto].
  - injection E as <-. split; cbn; auto. apply OTH; cbn; auto; [intros u Q; destruct (Nat.eqb_spec u t); congruence|rewrite Nat.eqb_refl; auto].
  - injection E as <-. split; cbn; auto. apply OTH; cbn; auto; [intros u Q; destruct (Nat.eqb_spec u t); congruence|rewrite Nat.eqb_refl; auto].
  - injection E as <-. destruct b; (split; cbn; unfold destroyed in *; cbn; [rewrite D1; intuition discriminate| |exact D3|intros [Q|Q]; [discriminate|auto]]); (apply OTH; cbn; auto; [intros u Q; destruct (Nat.eqb_spec u t); congruence|rewrite Nat.eqb_refl; auto]).
Qed.
Lemma obeys_back e s s' : step e s = Moved s' -> obeys (log s') -> obeys (log s).
Proof.
  destruct e as [e|t e]; cbn [step]; intros E OB.
  - unfold ostep, use, give, awake in E. destruct (own s) as [|x tm|x tm| |x|x], e as [c| | |]; try discriminate; try (destruct c); try (destruct (alive s); [|discriminate]); try (destruct x as [m f|m|m]; cbn [timed exits] in *; try (destruct m)); try (destruct (sem s); try discriminate); try discriminate; injection E as <-; cbn in OB; tauto.
  - unfold kstep, use in E. destruct (pcs s t) as [|r|r|r| |r| |[|]], e as [[| |]|]; try discriminate; try (destruct (alive s); [|discriminate]); injection E as <-; cbn in OB; tauto.
Qed.
Lemma run_dis l : forall s s', Inv s -> (obeys (log s) -> Dis s) -> run l s = Moved s' -> obeys (log s') -> Dis s'.
Proof.
  induction l as [|e l IH]; intros s s' IV D E OB; cbn in E; [injection E as <-; auto|]. destruct (step e s) as [s1| |] eqn:E1; try discriminate.
  refine (IH s1 s' (step_ok _ _ _ IV E1) _ E OB). intros OB1. destruct e as [e|t e]; [exact (ostep_dis e s s1 OB1 D IV E1)|exact (kstep_dis t e s s1 OB1 D E1)].
Qed.
Lemma reach_dis l s : run l init = Moved s -> obeys (log s) -> Dis s.
Proof. intros E. apply (run_dis l init s init_ok (fun _ => init_dis) E). Qed.
