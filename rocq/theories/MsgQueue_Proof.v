(** Proofs about the message queue. *)
From Coq Require Import ZArith Permutation.
From Verif Require Import Common MsgQueue_Spec MsgQueue_Model.
Open Scope nat_scope.

(** * Histories *)
Lemma times_cons e a h : times e (a :: h) = (if ev_dec a e then 1 else 0) + times e h.
Proof. unfold times. cbn. destruct (ev_dec a e); reflexivity. Qed.
Lemma times_in e h : In e h <-> 1 <= times e h.
Proof. unfold times. rewrite (count_occ_In ev_dec). lia. Qed.
Definition b2n (b : bool) : nat := if b then 1 else 0.
Lemma evif (e a : ev) : (if ev_dec a e then 1 else 0) = match a, e with
  | Push i p, Push j q => b2n ((i =? j) && Bool.eqb p q) | Take i, Take j | Ran i, Ran j | Flushed i, Flushed j
  | Cancelled i, Cancelled j | Done i, Done j => b2n (i =? j) | _, _ => 0 end.
Proof.
  destruct (ev_dec a e) as [->|N].
  - destruct e; rewrite ?Nat.eqb_refl, ?eqb_reflx; reflexivity.
  - destruct a, e; try reflexivity; unfold b2n.
    + destruct (i =? i0) eqn:A; [|reflexivity]. apply Nat.eqb_eq in A. subst. destruct (Bool.eqb pr pr0) eqn:B; [|reflexivity].
      apply eqb_prop in B. congruence.
    + destruct (i =? i0) eqn:A; [|reflexivity]. apply Nat.eqb_eq in A. congruence.
    + destruct (i =? i0) eqn:A; [|reflexivity]. apply Nat.eqb_eq in A. congruence.
    + destruct (i =? i0) eqn:A; [|reflexivity]. apply Nat.eqb_eq in A. congruence.
    + destruct (i =? i0) eqn:A; [|reflexivity]. apply Nat.eqb_eq in A. congruence.
    + destruct (i =? i0) eqn:A; [|reflexivity]. apply Nat.eqb_eq in A. congruence.
Qed.
Lemma times_push i b j p h : times (Push i b) (Push j p :: h) = b2n ((j =? i) && Bool.eqb p b) + times (Push i b) h.
Proof. rewrite times_cons, evif. reflexivity. Qed.

(** messages pushed with priority [b], the newest first, and those of them which are in the queue *)
Definition pl (b : bool) (h : list ev) : list nat := flat_map (fun e => match e with Push i p => if Bool.eqb p b then [i] else [] | _ => [] end) h.
Definition goneb (h : list ev) (i : nat) : bool := existsb (fun e => match e with Take j | Cancelled j => i =? j | _ => false end) h.
Definition live (b : bool) (h : list ev) : list nat := filter (fun i => negb (goneb h i)) (pl b h).

Lemma goneb_gone h i : goneb h i = true <-> gone i h.
Proof.
  unfold goneb, gone. rewrite existsb_exists. split.
  - intros (e & I & E). destruct e; try discriminate; apply Nat.eqb_eq in E; subst; auto.
  - intros [I|I]; eexists; split; try exact I; cbn; apply Nat.eqb_refl.
Qed.
Lemma pl_in b h i : In i (pl b h) <-> In (Push i b) h.
Proof.
  unfold pl. rewrite in_flat_map. split.
  - intros (e & I & E). destruct e; cbn in E; try tauto. destruct (Bool.eqb pr b) eqn:Q; [|destruct E].
    apply eqb_prop in Q. destruct E as [->|[]]. subst. exact I.
  - intros I. exists (Push i b). rewrite eqb_reflx. cbn. auto.
Qed.
Lemma pl_count b h i : count_occ Nat.eq_dec (pl b h) i = times (Push i b) h.
Proof.
  induction h as [|e h IH]; [reflexivity|]. rewrite times_cons, evif, <- IH. unfold pl. cbn [flat_map]. rewrite count_occ_app.
  destruct e; try reflexivity. f_equal. destruct (Bool.eqb pr b); cbn; [|rewrite andb_false_r; reflexivity].
  destruct (Nat.eq_dec i0 i) as [->|N]; [rewrite Nat.eqb_refl; reflexivity|]. apply Nat.eqb_neq in N. rewrite N. reflexivity.
Qed.
Lemma pl_app b h1 h2 : pl b (h1 ++ h2) = pl b h1 ++ pl b h2.
Proof. apply flat_map_app. Qed.
Lemma earlier_pl a b p h : earlier a p b p h -> exists u v, pl p h = u ++ b :: v /\ In a v.
Proof.
  intros (x & y & z & ->). exists (pl p x), (pl p (y ++ Push a p :: z)). rewrite pl_app. unfold pl at 2. cbn [flat_map].
  rewrite eqb_reflx. split; [reflexivity|]. apply pl_in. apply in_or_app. right. left. reflexivity.
Qed.
Lemma live_in b h i : In i (live b h) <-> In (Push i b) h /\ ~ gone i h.
Proof.
  unfold live. rewrite filter_In, pl_in. split; intros [A B]; split; auto.
  - intros G. apply goneb_gone in G. rewrite G in B. discriminate.
  - destruct (goneb h i) eqn:G; [|reflexivity]. apply goneb_gone in G. tauto.
Qed.
Lemma live_incl b h i : In i (live b h) -> In i (pl b h).
Proof. intros I. apply filter_In in I. apply I. Qed.

Definition rem (t : nat) (l : list nat) : list nat := filter (fun x => negb (x =? t)) l.
Lemma rem_notin t l : ~ In t l -> rem t l = l.
Proof.
  induction l as [|a l IH]; intros N; [reflexivity|]. unfold rem in *. cbn. destruct (a =? t) eqn:E.
  - apply Nat.eqb_eq in E. subst. exfalso. apply N. left. reflexivity.
  - cbn. rewrite IH; [reflexivity|]. intros I. apply N. right. exact I.
Qed.
Lemma rem_app t a b : rem t (a ++ b) = rem t a ++ rem t b.
Proof. apply filter_app. Qed.
Lemma filter_rev {A} (f : A -> bool) l : filter f (rev l) = rev (filter f l).
Proof.
  induction l as [|a l IH]; [reflexivity|]. cbn. rewrite filter_app, IH. cbn. destruct (f a); cbn; [reflexivity|apply app_nil_r].
Qed.
Lemma rem_rev t l : rem t (rev l) = rev (rem t l).
Proof. apply filter_rev. Qed.
Lemma remove_rem t l : remove Nat.eq_dec t l = rem t l.
Proof.
  unfold rem. induction l as [|a l IH]; [reflexivity|]. cbn. destruct (Nat.eq_dec t a) as [->|N].
  - rewrite Nat.eqb_refl. exact IH.
  - assert (a =? t = false) as -> by (apply Nat.eqb_neq; auto). cbn. rewrite IH. reflexivity.
Qed.

Lemma live_push b h i p : ~ gone i h -> live b (Push i p :: h) = (if Bool.eqb p b then [i] else []) ++ live b h.
Proof.
  intros N. unfold live, pl. cbn [flat_map]. rewrite filter_app. f_equal.
  destruct (Bool.eqb p b); [|reflexivity]. cbn. change (existsb _ h) with (goneb h i). destruct (goneb h i) eqn:G; [apply goneb_gone in G; tauto|reflexivity].
Qed.
Lemma live_gone b h t e : e = Take t \/ e = Cancelled t -> live b (e :: h) = rem t (live b h).
Proof.
  intros E. unfold live, rem.
  assert (P : pl b (e :: h) = pl b h) by (destruct E; subst; reflexivity). rewrite P.
  generalize (pl b h). intros l. induction l as [|a l IH]; [reflexivity|]. cbn [filter].
  assert (G : goneb (e :: h) a = (a =? t) || goneb h a) by (destruct E; subst; reflexivity). rewrite G, IH.
  destruct (goneb h a); cbn.
  - rewrite orb_true_r. reflexivity.
  - rewrite orb_false_r. destruct (a =? t); reflexivity.
Qed.
Definition quiet (e : ev) : bool := match e with Ran _ | Flushed _ | Done _ => true | _ => false end.
Lemma live_quiet b h e : quiet e = true -> live b (e :: h) = live b h.
Proof. destruct e; cbn; intros Q; try discriminate; reflexivity. Qed.

Lemma nodup_app_l {A} (a b : list A) : NoDup (a ++ b) -> NoDup a.
Proof. intros N. apply NoDup_rev in N. rewrite rev_app_distr in N. revert N. induction (rev b) as [|x l IH]; cbn; intros N.
  - apply NoDup_rev in N. rewrite rev_involutive in N. exact N.
  - inversion N; subst. auto.
Qed.
Lemma nodup_app_r {A} (a b : list A) : NoDup (a ++ b) -> NoDup b.
Proof. induction a as [|x a IH]; cbn; intros N; [exact N|]. inversion N; subst. auto. Qed.
(** in a list without repetition a mark has one place *)
Lemma nodup_split {A} (b : A) : forall u u' v v', NoDup (u ++ b :: v) -> u ++ b :: v = u' ++ b :: v' -> u = u' /\ v = v'.
Proof.
  induction u as [|x u IH]; intros u' v v' N E.
  - destruct u' as [|y u']; cbn in *; [injection E as ->; auto|]. injection E as -> E. exfalso. inversion N; subst. apply H1.
    apply in_or_app. right. left. reflexivity.
  - destruct u' as [|y u']; cbn in *.
    + injection E as -> E. exfalso. inversion N; subst. apply H1. apply in_or_app. right. left. reflexivity.
    + injection E as -> E. inversion N; subst. destruct (IH u' v v' H2 E) as [-> ->]. auto.
Qed.

(** the oldest ordinary message in the queue: all earlier ones are gone *)
Lemma oldest h b x : NoDup (pl false h) -> rev (live false h) = b :: x -> forall a, earlier a false b false h -> gone a h.
Proof.
  intros N E a R. destruct (earlier_pl _ _ _ _ R) as (u & v & P & I).
  apply (f_equal (@rev nat)) in E. rewrite rev_involutive in E. cbn in E.
  assert (B : In b (live false h)) by (rewrite E; apply in_or_app; right; left; reflexivity).
  assert (N2 : NoDup (live false h)) by (apply NoDup_filter; exact N).
  apply filter_In in B. destruct B as [_ B]. unfold live in E, N2. rewrite P in E, N2. rewrite filter_app in E, N2. cbn [filter] in E, N2.
  rewrite B in E, N2. destruct (nodup_split b _ _ _ _ N2 E) as [_ F].
  destruct (goneb h a) eqn:G; [apply goneb_gone; exact G|].
  exfalso. assert (In a (filter (fun i => negb (goneb h i)) v)) as J by (apply filter_In; rewrite G; auto). rewrite F in J. destruct J.
Qed.
(** the newest priority message in the queue: all later ones are gone *)
Lemma newest h b x : NoDup (pl true h) -> live true h = b :: x -> forall a, earlier b true a true h -> gone a h.
Proof.
  intros N E a R. destruct (earlier_pl _ _ _ _ R) as (u & v & P & I).
  assert (B : In b (live true h)) by (rewrite E; left; reflexivity).
  assert (N2 : NoDup (live true h)) by (apply NoDup_filter; exact N).
  apply in_split in I. destruct I as (v1 & v2 & ->).
  replace (u ++ a :: v1 ++ b :: v2) with ((u ++ a :: v1) ++ b :: v2) in P by (rewrite <- app_assoc; reflexivity).
  apply filter_In in B. destruct B as [_ B]. unfold live in E, N2. rewrite P in E, N2. rewrite filter_app in E, N2. cbn [filter] in E, N2.
  rewrite B in E, N2. change (b :: x) with ([] ++ b :: x) in E. destruct (nodup_split b _ _ _ _ N2 E) as [F _].
  destruct (goneb h a) eqn:G; [apply goneb_gone; exact G|].
  exfalso. assert (In a (filter (fun i => negb (goneb h i)) (u ++ a :: v1))) as J
    by (apply filter_In; rewrite G; split; [apply in_or_app; right; left; reflexivity|reflexivity]). rewrite F in J. destruct J.
Qed.

(** history that grows *)
Lemma ended_cons i e h : ended i h -> ended i (e :: h).
Proof. unfold ended. cbn. tauto. Qed.
Lemma gone_cons i e h : gone i h -> gone i (e :: h).
Proof. unfold gone. cbn. tauto. Qed.
Lemma earlier_cons a p b q e h : (forall r, e <> Push b r) -> earlier a p b q (e :: h) -> earlier a p b q h.
Proof.
  intros N (x & y & z & E). destruct x as [|e' x]; cbn in E; injection E as E1 E2; [exfalso; apply (N q); auto|].
  exists x, y, z. exact E2.
Qed.
Lemma earlier_in a p b q h : earlier a p b q h -> In (Push a p) h /\ In (Push b q) h.
Proof.
  intros (x & y & z & ->). split; apply in_or_app; right; [right; apply in_or_app; right; left; reflexivity|left; reflexivity].
Qed.
Lemma earlier_top a p b q h : ~ (exists r, In (Push a r) h) -> ~ earlier a p b q (Push a p :: h).
Proof.
  intros N (x & y & z & E). destruct x as [|e' x]; cbn in E.
  - assert (h = y ++ Push a p :: z) as -> by congruence. apply N. exists p. apply in_or_app. right. left. reflexivity.
  - assert (h = x ++ Push b q :: y ++ Push a p :: z) as -> by congruence. apply N. exists p.
    apply in_or_app. right. right. apply in_or_app. right. left. reflexivity.
Qed.

(** * The invariant *)
Definition cin (c : cpc) : bool := match c with CInc | CEnd => true | _ => false end.
(** [i] is pushed with priority [b], by the place of its poster *)
Definition pin (l : list msg) (i : nat) (b : bool) : nat :=
  match nth_error l i with Some m => b2n (cin (cp m) && Bool.eqb (prio m) b) | None => 0 end.
Definition wl (s : st) : list nat := match pc s with P2 _ l | P3 _ l => l | _ => [] end.
Definition hand (s : st) : list nat := match pc s with G3 _ m | Run m => [m] | _ => [] end.
Definition opt (o : option nat) : list nat := match o with Some x => [x] | None => [] end.
Definition copen (c : ctx) : list nat := match c with Pump => [] | Fl m o => m :: opt o end.
Definition kopen (k : pk) : list nat := match k with KGet c => copen c | KFl m | KCan m _ => [m] end.
(** ended and not yet done *)
Definition opens (s : st) : list nat :=
  match pc s with
  | Idle | Run _ => []
  | G0 c | G1 c | G2 c _ | G3 c _ => copen c
  | P0 k | P1 k _ | P2 k _ | P3 k _ => kopen k
  | C1 m _ | C2 m _ | Fin m => [m]
  | C3 m t => [m; t]
  end.
Definition pcount (c : cpc) : Z := match c with CInc => 1 | _ => 0 end.
Definition csum (l : list msg) : Z := fold_right (fun m a => pcount (cp m) + a)%Z 0%Z l.
Definition owed (s : st) : Z := match pc s with G3 _ _ | C3 _ _ => 1 | _ => 0 end.
Definition cnt (i : nat) (l : list nat) : nat := count_occ Nat.eq_dec l i.
Definition kindof (s : st) (m : nat) : option kind := option_map kd (nth_error (msgs s) m).
Definition flusher (s : st) (m : nat) : Prop := kindof s m = Some Flush \/ kindof s m = Some Finish.
Definition cok (s : st) (c : ctx) : Prop := match c with Pump => True | Fl m _ => flusher s m end.
Definition kok (s : st) (k : pk) : Prop :=
  match k with KGet c => cok s c | KFl m => flusher s m | KCan m t => kindof s m = Some (Cancel t) end.
Definition pok (s : st) : Prop :=
  match pc s with
  | G0 c | G1 c | G2 c _ | G3 c _ => cok s c
  | P0 k | P1 k _ | P2 k _ | P3 k _ => kok s k
  | C1 m t | C2 m t | C3 m t => kindof s m = Some (Cancel t)
  | Idle | Run _ | Fin _ => True
  end.
(** a message is being run by [m], and the list of new messages was taken since *)
Definition cpast (c : ctx) : option nat := match c with Pump => None | Fl m _ => Some m end.
Definition past (s : st) : option nat :=
  match pc s with
  | G0 c | G1 c | G2 c _ | G3 c _ | P0 (KGet c) | P1 (KGet c) _ | P2 (KGet c) _ | P3 (KGet c) _ => cpast c
  | P2 (KFl m) _ | P3 (KFl m) _ | P2 (KCan m _) _ | P3 (KCan m _) _ | C1 m _ | C2 m _ => Some m
  | _ => None
  end.

(** rejected and not yet done *)
Definition cheld (c : ctx) : list nat := match c with Pump => [] | Fl _ o => opt o end.
Definition held (s : st) : list nat :=
  match pc s with
  | G0 c | G1 c | G2 c _ | G3 c _ | P0 (KGet c) | P1 (KGet c) _ | P2 (KGet c) _ | P3 (KGet c) _ => cheld c
  | C3 _ t => [t]
  | _ => []
  end.

Record Inv (s : st) : Prop := {
  v_line : exists od, cur s = live true (hist s) ++ od /\ od ++ wl s ++ rev (new s) = rev (live false (hist s));
  v_push : forall i b, times (Push i b) (hist s) = pin (msgs s) i b;
  v_out : forall i, times (Take i) (hist s) + times (Cancelled i) (hist s) <= times (Push i true) (hist s) + times (Push i false) (hist s);
  v_take : forall i, times (Take i) (hist s) = cnt i (hand s) + times (Ran i) (hist s) + times (Flushed i) (hist s);
  v_done : forall i, times (Ran i) (hist s) + times (Flushed i) (hist s) + times (Cancelled i) (hist s) = cnt i (opens s) + times (Done i) (hist s);
  v_len : (qlen s = Z.of_nat (length (cur s) + length (wl s) + length (new s)) - csum (msgs s) + owed s)%Z;
  v_kind : pok s;
  v_past : forall m, past s = Some m -> forall a p q, In a (new s) -> ~ earlier a p m q (hist s);
  v_hand : forall m, In m (hand s) -> forall a, earlier a false m false (hist s) -> gone a (hist s);
  v_fin : forall m, pc s = Fin m -> (flusher s m -> forall a p q, earlier a p m q (hist s) -> ended a (hist s)) /\
                                  (forall t p q, kindof s m = Some (Cancel t) -> earlier t p m q (hist s) -> ended t (hist s));
  v_held : forall x, In x (held s) -> In (Flushed x) (hist s) \/ In (Cancelled x) (hist s);
  v_fifo : fifo (hist s);
  v_prio : lifo_prio (hist s);
  v_clears : forall f, flusher s f -> clears f (hist s);
  v_clears1 : forall f t, kindof s f = Some (Cancel t) -> clears_one f t (hist s);
}.

Section inv.
Variable s : st.
Hypothesis V : Inv s.

Lemma push_one i : times (Push i true) (hist s) + times (Push i false) (hist s) <= 1.
Proof.
  rewrite !(v_push _ V). unfold pin. destruct (nth_error (msgs s) i) as [[k p c]|]; [|lia]. cbn. destruct (cin c), p; cbn; lia.
Qed.
Lemma nodup_pl b : NoDup (pl b (hist s)).
Proof.
  apply (NoDup_count_occ Nat.eq_dec). intros i. rewrite pl_count. pose proof (push_one i). destruct b; lia.
Qed.
Lemma live_disj i : In i (live true (hist s)) -> In i (live false (hist s)) -> False.
Proof.
  intros A B. apply live_in in A, B. destruct A as [A _], B as [B _]. apply times_in in A, B. pose proof (push_one i). lia.
Qed.
Lemma nodup_wait : NoDup (cur s ++ wl s ++ rev (new s)).
Proof.
  destruct (v_line _ V) as (od & E & F). rewrite E, <- app_assoc, F.
  apply (NoDup_count_occ Nat.eq_dec). intros i. rewrite count_occ_app.
  assert (N1 : NoDup (live true (hist s))) by (apply NoDup_filter, nodup_pl).
  assert (N2 : NoDup (rev (live false (hist s)))) by (apply NoDup_rev, NoDup_filter, nodup_pl).
  rewrite (NoDup_count_occ Nat.eq_dec) in N1, N2. specialize (N1 i). specialize (N2 i).
  destruct (count_occ Nat.eq_dec (live true (hist s)) i) eqn:C1; [lia|].
  destruct (count_occ Nat.eq_dec (rev (live false (hist s))) i) eqn:C2; [lia|]. exfalso.
  apply (live_disj i).
  - apply (count_occ_In Nat.eq_dec). lia.
  - apply in_rev. apply (count_occ_In Nat.eq_dec). lia.
Qed.
Lemma wait_live i : In i (cur s ++ wl s ++ rev (new s)) <-> In i (live true (hist s)) \/ In i (live false (hist s)).
Proof.
  destruct (v_line _ V) as (od & E & F). rewrite E, <- app_assoc, F. rewrite in_app_iff, <- in_rev. reflexivity.
Qed.
Lemma not_pushed i m : nth_error (msgs s) i = Some m -> cin (cp m) = false -> forall r, ~ In (Push i r) (hist s).
Proof.
  intros E C r I. apply times_in in I. rewrite (v_push _ V) in I. unfold pin in I. rewrite E, C in I. cbn in I. lia.
Qed.
Lemma gone_pushed i : gone i (hist s) -> exists r, In (Push i r) (hist s).
Proof.
  intros G. pose proof (v_out _ V i) as O. assert (1 <= times (Take i) (hist s) + times (Cancelled i) (hist s)).
  { destruct G as [G|G]; apply times_in in G; lia. }
  destruct (times (Push i true) (hist s)) eqn:P; [exists false|exists true]; apply times_in; lia.
Qed.
(** what is pushed, not in the queue and not in the hand has ended *)
Lemma gone_ended i : gone i (hist s) -> ~ In i (hand s) -> ended i (hist s).
Proof.
  intros G N. pose proof (v_take _ V i) as K. unfold cnt in K. apply (count_occ_not_In Nat.eq_dec) in N. rewrite N in K.
  destruct G as [G|G]; [|right; right; exact G]. apply times_in in G.
  destruct (times (Ran i) (hist s)) eqn:P; [right; left|left]; apply times_in; lia.
Qed.
Lemma pushed_cases i p : In (Push i p) (hist s) -> In i (cur s ++ wl s ++ rev (new s)) \/ gone i (hist s).
Proof.
  intros I. destruct (goneb (hist s) i) eqn:G; [right; apply goneb_gone; exact G|]. left. apply wait_live.
  assert (~ gone i (hist s)) by (intros X; apply goneb_gone in X; congruence).
  destruct p; [left|right]; apply live_in; auto.
Qed.
End inv.

(** * Steps of the worker *)
Lemma cnt_nil i : cnt i [] = 0.
Proof. reflexivity. Qed.
Lemma cnt_cons i x l : cnt i (x :: l) = b2n (x =? i) + cnt i l.
Proof.
  unfold cnt. cbn. destruct (Nat.eq_dec x i) as [->|N]; [rewrite Nat.eqb_refl; reflexivity|]. apply Nat.eqb_neq in N. rewrite N. reflexivity.
Qed.
Lemma np_earlier e h a p b q : (forall i r, e <> Push i r) -> earlier a p b q (e :: h) -> earlier a p b q h.
Proof. intros N. apply earlier_cons. intros r. apply N. Qed.
Lemma clears_cons f e h : e <> Done f -> clears f h -> clears f (e :: h).
Proof.
  intros N C x y E. destruct x as [|e' x]; cbn in E; [injection E as E1 E2; congruence|]. injection E as _ E. apply (C x y E).
Qed.
Lemma clears1_cons f t e h : e <> Done f -> clears_one f t h -> clears_one f t (e :: h).
Proof.
  intros N C x y p q E. destruct x as [|e' x]; cbn in E; [injection E as E1 E2; congruence|]. injection E as _ E. apply (C x y p q E).
Qed.
Lemma sameh_head l m : sameh (hd_error l) (Some m) = true -> exists t, l = m :: t.
Proof. destruct l as [|x t]; cbn; intros E; [discriminate|]. apply Nat.eqb_eq in E. subst. eauto. Qed.

(** a step that changes only where the worker is *)
Lemma inv_pc s p : Inv s -> wl (at_ s p (hist s)) = wl s -> hand (at_ s p (hist s)) = hand s -> held (at_ s p (hist s)) = held s -> opens (at_ s p (hist s)) = opens s ->
  owed (at_ s p (hist s)) = owed s -> pok (at_ s p (hist s)) ->
  (past (at_ s p (hist s)) = past s \/ past (at_ s p (hist s)) = None) ->
  (forall m, p = Fin m -> (flusher s m -> forall a p q, earlier a p m q (hist s) -> ended a (hist s)) /\
                (forall t p q, kindof s m = Some (Cancel t) -> earlier t p m q (hist s) -> ended t (hist s))) ->
  Inv (at_ s p (hist s)).
Proof.
  intros V E1 E2 EH E3 E4 E5 E6 E7. destruct V. constructor; try rewrite E1; try rewrite E2; try rewrite EH; try rewrite E3; try rewrite E4; auto.
  intros m. destruct E6 as [-> | ->]; [apply v_past0|discriminate].
Qed.

(** the kinds do not change *)
Lemma np_push e s : (forall i r, e <> Push i r) -> (forall i b, times (Push i b) (hist s) = pin (msgs s) i b) ->
  forall i b, times (Push i b) (e :: hist s) = pin (msgs s) i b.
Proof. intros N H i b. rewrite times_cons, evif, H. destruct e; try reflexivity. exfalso. eapply N; reflexivity. Qed.

Lemma take_ok s c m : Inv s -> pc s = G2 c m -> sameh (hd_error (cur s)) (Some m) = true ->
  Inv (mkSt (msgs s) (new s) (tl (cur s)) (qlen s) (fin s) (G3 c m) (Take m :: hist s)).
Proof.
  intros V P S. destruct (sameh_head _ _ S) as (r & C). pose proof (nodup_wait s V) as ND. pose proof (nodup_pl s V) as NP.
  pose proof (wait_live s V m) as WL. pose proof (push_one s V m) as PO. pose proof (v_out _ V) as VO.
  destruct V as [VL VP _ VT VD VN VK VA VH VF VE F1 F2 F3 F4]. destruct VL as (od & E & F).
  unfold wl, hand, opens, owed, past, pok, held in *. rewrite P in *. cbn [app] in *.
  assert (NG : ~ gone m (hist s)).
  { intros G. assert (I : In m (cur s ++ rev (new s))) by (rewrite C; left; reflexivity). apply WL in I.
    destruct I as [I|I]; apply live_in in I; tauto. }
  assert (Nm : ~ In m (r ++ rev (new s))) by (rewrite C in ND; inversion ND; assumption).
  constructor; cbn [msgs new cur qlen fin pc hist wl hand opens owed past pok].
  - rewrite C. cbn [tl]. rewrite !(live_gone _ _ m) by auto. destruct (live true (hist s)) as [|x lt] eqn:LT.
    + cbn [app] in E. subst od. rewrite C in F. exists r. cbn [rem filter app]. split; [reflexivity|].
      rewrite <- rem_rev, <- F. cbn. rewrite Nat.eqb_refl. cbn. symmetry. apply rem_notin. exact Nm.
    + assert (x = m) by (rewrite C in E; cbn in E; congruence). subst x. assert (r = lt ++ od) as -> by (rewrite C in E; cbn in E; congruence).
      exists od. split.
      * f_equal. cbn. rewrite Nat.eqb_refl. cbn. symmetry. apply rem_notin. intros I. apply Nm. rewrite <- app_assoc. apply in_or_app. auto.
      * rewrite <- rem_rev, <- F. symmetry. apply rem_notin. intros I. apply Nm. rewrite <- app_assoc. apply in_or_app. auto.
  - apply np_push; [congruence|]. exact VP.
  - intros i. specialize (VO i). rewrite !times_cons, !evif. destruct (m =? i) eqn:Q; cbn [b2n]; [|lia]. apply Nat.eqb_eq in Q. subst i.
    assert (times (Take m) (hist s) = 0 /\ times (Cancelled m) (hist s) = 0) as [A B].
    { split; [destruct (times (Take m) (hist s)) eqn:Z|destruct (times (Cancelled m) (hist s)) eqn:Z]; auto; exfalso; apply NG; unfold gone;
        rewrite !times_in; lia. }
    assert (In m (live true (hist s)) \/ In m (live false (hist s))) as I by (apply WL; rewrite C; left; reflexivity).
    assert (1 <= times (Push m true) (hist s) + times (Push m false) (hist s)).
    { destruct I as [I|I]; apply live_in in I; destruct I as [I _]; apply times_in in I; lia. }
    lia.
  - intros i. rewrite !times_cons, !evif, cnt_cons, cnt_nil, VT, cnt_nil. lia.
  - intros i. rewrite !times_cons, !evif. cbn [Nat.add]. apply VD.
  - rewrite VN, C. cbn [tl length]. lia.
  - exact VK.
  - intros f Pf a p q I X. apply np_earlier in X; [|congruence]. exact (VA f Pf a p q I X).
  - intros m' [<-|[]] a X. apply np_earlier in X; [|congruence]. apply gone_cons. destruct (earlier_in _ _ _ _ _ X) as [_ I].
    assert (live true (hist s) = []) as LT.
    { destruct (live true (hist s)) as [|x lt] eqn:LT; [reflexivity|]. assert (x = m) by (rewrite C in E; cbn in E; congruence). subst x.
      assert (In m (live true (hist s))) as J by (rewrite LT; left; reflexivity). apply live_in in J. destruct J as [J _]. apply times_in in I, J. lia. }
    rewrite LT in E. cbn in E. subst od. rewrite C in F. apply (oldest _ m (r ++ rev (new s)) (NP false)); [|exact X]. rewrite <- F. reflexivity.
  - discriminate.
  - intros x I. cbn. specialize (VE x I). tauto.
  - split; [exact F1|exact I].
  - split; [exact F2|]. destruct (live true (hist s)) as [|x lt] eqn:LT.
    + split.
      * intros _ a Ha. destruct (goneb (hist s) a) eqn:G; [apply goneb_gone; exact G|]. exfalso.
        assert (In a (live true (hist s))) as J; [|rewrite LT in J; destruct J]. apply live_in. split; [exact Ha|].
        intros X. apply goneb_gone in X. congruence.
      * intros a X. destruct (earlier_in _ _ _ _ _ X) as [I _]. exfalso. assert (In m (live true (hist s))) as J by (apply live_in; auto).
        rewrite LT in J. destruct J.
    + assert (x = m) by (rewrite C in E; cbn in E; congruence). subst x. split.
      * intros I. exfalso. assert (In m (live true (hist s))) as J by (rewrite LT; left; reflexivity). apply live_in in J. destruct J as [J _].
        apply times_in in I, J. lia.
      * apply (newest _ m lt (NP true)). exact LT.
  - intros f Hf. apply clears_cons; [congruence|]. apply F3. exact Hf.
  - intros f t Hf. apply clears1_cons; [congruence|]. apply F4. exact Hf.
Qed.

Lemma cancel_ok s m t r : Inv s -> (pc s = C1 m t \/ pc s = C2 m t) -> In t (cur s) -> r = rem t (cur s) ->
  Inv (mkSt (msgs s) (new s) r (qlen s) (fin s) (C3 m t) (Cancelled t :: hist s)).
Proof.
  intros V P It ->. pose proof (nodup_wait s V) as ND. 
  pose proof (wait_live s V t) as WL. pose proof (push_one s V t) as PO. pose proof (v_out _ V) as VO.
  destruct V as [VL VP _ VT VD VN VK VA VH VF VE F1 F2 F3 F4]. destruct VL as (od & E & F).
  assert (W0 : wl s = []) by (unfold wl; destruct P as [P|P]; rewrite P; reflexivity).
  assert (H0 : hand s = []) by (unfold hand; destruct P as [P|P]; rewrite P; reflexivity).
  assert (O0 : opens s = [m]) by (unfold opens; destruct P as [P|P]; rewrite P; reflexivity).
  assert (N0 : owed s = 0%Z) by (unfold owed; destruct P as [P|P]; rewrite P; reflexivity).
  assert (K0 : kindof s m = Some (Cancel t)) by (unfold pok in VK; destruct P as [P|P]; rewrite P in VK; exact VK).
  rewrite W0, H0, O0, N0 in *. cbn [app] in *.
  assert (NG : ~ gone t (hist s)).
  { intros G. assert (I : In t (cur s ++ rev (new s))) by (apply in_or_app; auto). apply WL in I.
    destruct I as [I|I]; apply live_in in I; tauto. }
  assert (Nt : ~ In t (rev (new s))).
  { intros I. apply in_split in It. destruct It as (u & v & Q). rewrite Q, <- app_assoc in ND. cbn in ND. apply NoDup_remove_2 in ND.
    apply ND. apply in_or_app. right. apply in_or_app. auto. }
  assert (RL : length (cur s) = S (length (rem t (cur s)))).
  { apply nodup_app_l in ND. clear - ND It. induction (cur s) as [|a l IH]; [destruct It|]. inversion ND as [|? ? NI ND']; subst. unfold rem in *. cbn.
    destruct (a =? t) eqn:Q; cbn.
    - apply Nat.eqb_eq in Q. subst a. f_equal. change (filter _ l) with (rem t l). rewrite rem_notin; auto.
    - f_equal. apply IH; auto. destruct It as [->|It]; [rewrite Nat.eqb_refl in Q; discriminate|exact It]. }
  constructor; cbn [msgs new cur qlen fin pc hist wl hand opens owed past pok].
  - rewrite !(live_gone _ _ t) by auto. exists (rem t od). rewrite E, rem_app. split; [reflexivity|]. cbn [app].
    rewrite <- rem_rev, <- F, rem_app. f_equal. symmetry. apply rem_notin. exact Nt.
  - apply np_push; [congruence|]. exact VP.
  - intros i. specialize (VO i). rewrite !times_cons, !evif. destruct (t =? i) eqn:Q; cbn [b2n]; [|lia]. apply Nat.eqb_eq in Q. subst i.
    assert (times (Take t) (hist s) = 0 /\ times (Cancelled t) (hist s) = 0) as [A B].
    { split; [destruct (times (Take t) (hist s)) eqn:Z|destruct (times (Cancelled t) (hist s)) eqn:Z]; auto; exfalso; apply NG; unfold gone;
        rewrite !times_in; lia. }
    assert (In t (live true (hist s)) \/ In t (live false (hist s))) as I by (apply WL; apply in_or_app; auto).
    assert (1 <= times (Push t true) (hist s) + times (Push t false) (hist s)).
    { destruct I as [I|I]; apply live_in in I; destruct I as [I _]; apply times_in in I; lia. }
    lia.
  - intros i. specialize (VT i). rewrite cnt_nil in VT. rewrite !times_cons, !evif, cnt_nil. lia.
  - intros i. specialize (VD i). rewrite !times_cons, !evif, !cnt_cons, cnt_nil in *. lia.
  - rewrite VN. rewrite RL. cbn [length]. lia.
  - exact K0.
  - discriminate.
  - intros m' [].
  - discriminate.
  - intros x [<-|[]]. right. left. reflexivity.
  - split; [exact F1|exact I].
  - split; [exact F2|exact I].
  - intros f Hf. apply clears_cons; [congruence|]. apply F3. exact Hf.
  - intros f t' Hf. apply clears1_cons; [congruence|]. apply F4. exact Hf.
Qed.

(** a step with one event that leaves the queue as it is *)
Lemma inv_ev s e p ql fn : Inv s -> quiet e = true ->
  let s' := mkSt (msgs s) (new s) (cur s) ql fn p (e :: hist s) in
  wl s' = wl s -> (forall m, In m (hand s') -> In m (hand s)) -> (forall x, In x (held s') -> In x (held s) \/ e = Flushed x) ->
  (forall i, times (Take i) (e :: hist s) = cnt i (hand s') + times (Ran i) (e :: hist s) + times (Flushed i) (e :: hist s)) ->
  (forall i, times (Ran i) (e :: hist s) + times (Flushed i) (e :: hist s) + times (Cancelled i) (e :: hist s) = cnt i (opens s') + times (Done i) (e :: hist s)) ->
  (ql - owed s' = qlen s - owed s)%Z -> pok s' -> (past s' = past s \/ past s' = None) ->
  (forall m, p = Fin m -> (flusher s m -> forall a p q, earlier a p m q (hist s) -> ended a (e :: hist s)) /\
                (forall t p q, kindof s m = Some (Cancel t) -> earlier t p m q (hist s) -> ended t (e :: hist s))) ->
  (forall b, e = Ran b \/ e = Flushed b -> forall a, earlier a false b false (hist s) -> ended a (hist s)) ->
  (forall f, e = Done f -> flusher s f -> In (Ran f) (hist s) -> forall a p q, earlier a p f q (hist s) -> ended a (hist s)) ->
  (forall f t, e = Done f -> kindof s f = Some (Cancel t) -> In (Ran f) (hist s) -> forall p q, earlier t p f q (hist s) -> ended t (hist s)) ->
  Inv s'.
Proof.
  intros V Q s' E1 E2 EH E3 E4 E5 E6 E7 E8 E9 E10 E11.
  assert (NP : forall i r, e <> Push i r) by (intros i r ->; discriminate).
  destruct V as [VL VP VO VT VD VN VK VA VH VF VE F1 F2 F3 F4].
  constructor; cbn [msgs new cur qlen fin pc hist s'].
  - rewrite !live_quiet by exact Q. rewrite E1. exact VL.
  - apply np_push; [exact NP|]. exact VP.
  - intros i. specialize (VO i). rewrite !times_cons, !evif. destruct e; try discriminate; lia.
  - exact E3.
  - exact E4.
  - rewrite E1. lia.
  - exact E6.
  - intros m P a p1 q I X. apply np_earlier in X; [|exact NP]. destruct E7 as [E7|E7]; [|congruence].
    rewrite E7 in P. exact (VA m P a p1 q I X).
  - intros m I a X. apply np_earlier in X; [|exact NP]. apply gone_cons. apply (VH m (E2 m I) a X).
  - intros m P. destruct (E8 m P) as [A B]. split.
    + intros Fl a p1 q X. apply np_earlier in X; [|exact NP]. exact (A Fl a p1 q X).
    + intros t p1 q K X. apply np_earlier in X; [|exact NP]. exact (B t p1 q K X).
  - intros x I. cbn. destruct (EH x I) as [J|J]; [specialize (VE x J); tauto|tauto].
  - split; [exact F1|]. destruct e; try exact I; apply E9; auto.
  - split; [exact F2|]. destruct e; try exact I; discriminate.
  - intros f Hf. destruct (ev_dec e (Done f)) as [->|N]; [|apply clears_cons; auto].
    intros x y E. destruct x as [|e' x]; cbn in E.
    + injection E as <-. intros R. exact (E10 f eq_refl Hf R).
    + injection E as _ E. exact (F3 f Hf x y E).
  - intros f t Hf. destruct (ev_dec e (Done f)) as [->|N]; [|apply clears1_cons; auto].
    intros x y p1 q1 E. destruct x as [|e' x]; cbn in E.
    + injection E as <-. intros R. exact (E11 f t eq_refl Hf R p1 q1).
    + injection E as _ E. exact (F4 f t Hf x y p1 q1 E).
Qed.

(** the held message of wtFlush is done *)
Lemma not_ran s x : Inv s -> In x (held s) -> times (Ran x) (hist s) = 0.
Proof.
  intros V I. pose proof (push_one s V x). pose proof (v_out _ V x). pose proof (v_take _ V x).
  destruct (v_held _ V x I) as [J|J]; apply times_in in J; lia.
Qed.
Lemma held_ok s f x : Inv s -> opens s = [f; x] -> held s = [x] -> forall p,
  let s' := at_ s p (Done x :: hist s) in
  wl s' = wl s -> hand s' = hand s -> owed s' = owed s -> held s' = [] ->
  opens s' = [f] -> pok s' -> past s' = past s -> (forall m, p <> Fin m) -> Inv s'.
Proof.
  intros V O H p s' E1 E2 E3 EH E4 E5 E6 E7. assert (R0 : times (Ran x) (hist s) = 0) by (apply not_ran; [exact V|rewrite H; left; reflexivity]).
  apply inv_ev; fold s'; auto.
  - intros m. fold (at_ s p (Done x :: hist s)). fold s'. rewrite E2. auto.
  - intros y. fold (at_ s p (Done x :: hist s)). fold s'. rewrite EH. intros [].
  - intros i. fold (at_ s p (Done x :: hist s)). fold s'. rewrite E2, !times_cons, !evif. apply (v_take _ V).
  - intros i. fold (at_ s p (Done x :: hist s)). fold s'. rewrite E4, !times_cons, !evif. pose proof (v_done _ V i) as D. rewrite O in D.
    rewrite !cnt_cons, !cnt_nil in *. lia.
  - fold (at_ s p (Done x :: hist s)). fold s'. rewrite E3. reflexivity.
  - intros m P. exfalso. exact (E7 m P).
  - intros b [P|P]; discriminate.
  - intros f' P _ R. injection P as <-. apply times_in in R. lia.
  - intros f' t P _ R. injection P as <-. apply times_in in R. lia.
Qed.

(** prepareQueue takes the new messages *)
Lemma steal_ok s k p : Inv s -> pc s = P1 k p -> Inv (mkSt (msgs s) [] (cur s) (qlen s) (fin s) (P2 k (rev (new s))) (hist s)).
Proof.
  intros V P. destruct V as [VL VP VO VT VD VN VK VA VH VF VE F1 F2 F3 F4].
  unfold wl, hand, opens, owed, past, pok, held in *. rewrite P in *.
  constructor; cbn [msgs new cur qlen fin pc hist wl hand opens owed past pok held]; auto.
  - destruct VL as (od & E & F). exists od. split; [exact E|]. cbn [app rev] in *. rewrite app_nil_r. exact F.
  - rewrite VN, rev_length. cbn [length]. lia.
  - discriminate.
Qed.
(** appendQueue *)
Lemma append_ok s k l : Inv s -> pc s = P2 k l \/ pc s = P3 k l -> Inv (mkSt (msgs s) (new s) (cur s ++ l) (qlen s) (fin s) (after_prep k) (hist s)).
Proof.
  intros V P. destruct V as [VL VP VO VT VD VN VK VA VH VF VE F1 F2 F3 F4].
  assert (W : wl s = l) by (unfold wl; destruct P as [P|P]; rewrite P; reflexivity). rewrite W in *.
  assert (W1 : forall n c q f h m, wl (mkSt m n c q f (after_prep k) h) = []) by (intros; unfold wl; cbn; destruct k; reflexivity).
  constructor; cbn [msgs new cur qlen fin pc hist]; rewrite ?W1; auto.
  - destruct VL as (od & E & F). exists (od ++ l). rewrite E, <- !app_assoc. split; [reflexivity|exact F].
  - intros i. rewrite VT. unfold hand. cbn [pc]. destruct P as [P|P]; rewrite P; destruct k; reflexivity.
  - intros i. rewrite VD. unfold opens. cbn [pc]. destruct P as [P|P]; rewrite P; destruct k; reflexivity.
  - rewrite VN, app_length. unfold owed. cbn [pc]. destruct P as [P|P]; rewrite P; destruct k; cbn [after_prep length]; lia.
  - unfold pok in *. cbn [pc]. destruct P as [P|P]; rewrite P in VK; destruct k; exact VK.
  - intros m E. apply VA. rewrite <- E. unfold past. cbn [pc]. destruct P as [P|P]; rewrite P; destruct k; reflexivity.
  - unfold hand. cbn [pc]. destruct k; intros m0 [].
  - destruct k; discriminate.
  - intros x I. apply VE. revert I. unfold held. cbn [pc]. destruct P as [P|P]; rewrite P; destruct k; auto.
Qed.

Lemma rem_cons_ne t p r : p =? t = false -> rem t (p :: r) = p :: rem t r.
Proof. intros E. unfold rem. cbn. rewrite E. reflexivity. Qed.

Lemma wstep_ok s : Inv s -> Inv (wstep s).
Proof.
  intros V. unfold wstep. destruct (pc s) as [|c|c|c m|c m|k|k p|k l|k l|m t|m t|m t|m|m] eqn:P.
  - apply inv_pc; auto; unfold wl, hand, held, opens, owed, pok, past; cbn [pc at_]; rewrite ?P; auto; exact I || discriminate.
  - pose proof (v_kind _ V) as K. unfold pok in K. rewrite P in K.
    destruct (cur s) eqn:C; apply inv_pc; auto; unfold wl, hand, held, opens, owed, pok, past; cbn [pc at_]; rewrite ?P; auto; try exact K; discriminate.
  - pose proof (v_kind _ V) as K. unfold pok in K. rewrite P in K.
    destruct (cur s) eqn:C.
    2: { apply inv_pc; auto; unfold wl, hand, held, opens, owed, pok, past; cbn [pc at_]; rewrite ?P; auto; try exact K; discriminate. }
    destruct c as [|m o].
    + apply inv_pc; auto; unfold wl, hand, held, opens, owed, pok, past; cbn [pc at_]; rewrite ?P; auto; try exact K; discriminate.
    + assert (A : Inv (at_ s (G1 (Fl m None)) (done_opt o (hist s)))).
      { destruct o as [x|].
        - cbn [done_opt]. apply (held_ok s m x V); unfold wl, hand, held, opens, owed, pok, past; cbn [pc at_]; rewrite ?P; auto; discriminate.
        - cbn [done_opt]. apply inv_pc; auto; unfold wl, hand, held, opens, owed, pok, past; cbn [pc at_]; rewrite ?P; auto; discriminate. }
      assert (Q : at_ s (Fin m) (done_opt o (hist s)) = at_ (at_ s (G1 (Fl m None)) (done_opt o (hist s))) (Fin m) (done_opt o (hist s))) by reflexivity.
      rewrite Q. clear Q. pose proof (inv_pc _ (Fin m) A) as Z. cbn [hist at_] in Z. apply Z; clear Z; auto; try exact I.
      * intros m' Em. injection Em as <-. split.
        -- intros _ a p q E. destruct (earlier_in _ _ _ _ _ E) as [Ia _].
           destruct (pushed_cases _ A a p Ia) as [W|G].
           ++ exfalso. cbn [cur at_ new hist] in W. rewrite C in W. cbn [wl pc at_ app] in W. apply in_rev in W.
              revert E. apply (v_past _ A m eq_refl). exact W.
           ++ apply (gone_ended _ A a G). intros [].
        -- intros t p q K'. exfalso. change (kindof s m = Some (Cancel t)) in K'. unfold flusher in K. destruct K as [K|K]; cbn [cok] in K; congruence.
  - pose proof (v_kind _ V) as K. unfold pok in K. rewrite P in K.
    destruct (sameh (hd_error (cur s)) (Some m)) eqn:S; [apply take_ok; auto|].
    destruct (cur s) eqn:C; apply inv_pc; auto; unfold wl, hand, held, opens, owed, pok, past; cbn [pc at_]; rewrite ?P; auto; try exact K; discriminate.
  - pose proof (v_kind _ V) as K. unfold pok in K. rewrite P in K. destruct c as [|f o].
    + destruct V as [VL VP VO VT VD VN VK VA VH VF VE F1 F2 F3 F4].
      unfold wl, hand, opens, owed, past, pok, held in *. rewrite P in *.
      constructor; cbn [msgs new cur qlen fin pc hist wl hand opens owed past pok held]; auto; try discriminate. rewrite VN. lia.
    + assert (A : Inv (at_ s (G3 (Fl f None) m) (done_opt o (hist s)))).
      { destruct o as [x|].
        - cbn [done_opt]. apply (held_ok s f x V); unfold wl, hand, held, opens, owed, pok, past; cbn [pc at_]; rewrite ?P; auto; discriminate.
        - cbn [done_opt]. apply inv_pc; auto; unfold wl, hand, held, opens, owed, pok, past; cbn [pc at_]; rewrite ?P; auto; discriminate. }
      pose proof (inv_ev _ (Flushed m) (G0 (Fl f (Some m))) (qlen s - 1) (fin s) A eq_refl) as Z. cbn [msgs new cur qlen fin pc hist at_] in Z.
      apply Z; clear Z; auto.
      * intros m' [].
      * intros x [<-|[]]. auto.
      * intros i. pose proof (v_take _ A i) as X. cbn [hist at_ hand pc] in X. rewrite !times_cons, !evif. cbn [hand pc]. rewrite !cnt_cons, !cnt_nil in *. lia.
      * intros i. pose proof (v_done _ A i) as X. cbn [hist at_ opens pc copen opt] in X. rewrite !times_cons, !evif. cbn [opens pc copen opt]. rewrite !cnt_cons, !cnt_nil in *. lia.
      * cbn [owed pc at_]. lia.
      * discriminate.
      * intros b [X|X]; [discriminate|injection X as <-]. intros a E.
        pose proof (v_hand _ A m) as G. cbn [hand pc at_ hist] in G. specialize (G (or_introl eq_refl) a E).
        apply (gone_ended _ A a G). cbn [hand pc at_]. intros [<-|[]]. destruct (earlier_pl _ _ _ _ E) as (u & v & Q & I).
        pose proof (nodup_pl _ A false) as N. cbn [hist at_] in N. rewrite Q in N. apply NoDup_remove_2 in N. apply N. apply in_or_app. auto.
      * discriminate.
      * discriminate.
  - pose proof (v_kind _ V) as K. unfold pok in K. rewrite P in K.
    destruct k; apply inv_pc; auto; unfold wl, hand, held, opens, owed, pok, past; cbn [pc at_]; rewrite ?P; auto; try exact K; discriminate.
  - pose proof (v_kind _ V) as K. unfold pok in K. rewrite P in K.
    destruct (sameh (hd_error (new s)) p) eqn:S; [apply (steal_ok s k p V P)|].
    destruct k; apply inv_pc; auto; unfold wl, hand, held, opens, owed, pok, past; cbn [pc at_]; rewrite ?P; auto; try exact K; discriminate.
  - pose proof (v_kind _ V) as K. unfold pok in K. rewrite P in K.
    destruct (cur s) eqn:C.
    + pose proof (append_ok s k l V (or_introl P)) as Z. rewrite C in Z. exact Z.
    + destruct k; apply inv_pc; auto; unfold wl, hand, held, opens, owed, pok, past; cbn [pc at_]; rewrite ?P; auto; try exact K; discriminate.
  - apply (append_ok s k l V (or_intror P)).
  - pose proof (v_kind _ V) as K. unfold pok in K. rewrite P in K.
    assert (FIN : ~ In t (cur s) -> Inv (at_ s (Fin m) (hist s))).
    { intros N. apply inv_pc; auto; unfold wl, hand, held, opens, owed, pok, past; cbn [pc at_]; rewrite ?P; auto.
      intros m' Em. injection Em as <-. split.
      - intros [F|F]; congruence.
      - intros t' p q K' E. rewrite K in K'. injection K' as <-. destruct (earlier_in _ _ _ _ _ E) as [Ia _].
        destruct (pushed_cases _ V t p Ia) as [W|G].
        + exfalso. unfold wl in W. rewrite P in W. cbn [app] in W. apply in_app_or in W. destruct W as [W|W]; [tauto|]. apply in_rev in W.
          revert E. apply (v_past _ V m); [unfold past; rewrite P; reflexivity|exact W].
        + apply (gone_ended _ V t G). unfold hand. rewrite P. intros []. }
    destruct (cur s) as [|p r] eqn:C; [apply FIN; intros []|].
    destruct (p =? t) eqn:Q.
    + apply inv_pc; auto; unfold wl, hand, held, opens, owed, pok, past; cbn [pc at_]; rewrite ?P; auto; try exact K; discriminate.
    + destruct (existsb (Nat.eqb t) r) eqn:X.
      * apply (cancel_ok s m t); auto.
        -- rewrite C. right. apply existsb_exists in X. destruct X as (y & I & Y). apply Nat.eqb_eq in Y. subst. exact I.
        -- rewrite C, rem_cons_ne, remove_rem by exact Q. reflexivity.
      * apply FIN. intros [->|I]; [rewrite Nat.eqb_refl in Q; discriminate|].
        assert (existsb (Nat.eqb t) r = true) by (apply existsb_exists; exists t; rewrite Nat.eqb_refl; auto). congruence.
  - pose proof (v_kind _ V) as K. unfold pok in K. rewrite P in K.
    destruct (sameh (hd_error (cur s)) (Some t)) eqn:S.
    + destruct (sameh_head _ _ S) as (r & C). apply (cancel_ok s m t); auto.
      * rewrite C. left. reflexivity.
      * rewrite C. cbn [tl]. unfold rem. cbn. rewrite Nat.eqb_refl. cbn. symmetry. apply rem_notin.
        pose proof (nodup_wait s V) as N. rewrite C in N. inversion N as [|? ? NI _]. intros I. apply NI. apply in_or_app. auto.
    + apply inv_pc; auto; unfold wl, hand, held, opens, owed, pok, past; cbn [pc at_]; rewrite ?P; auto; try exact K; discriminate.
  - pose proof (v_kind _ V) as K. unfold pok in K. rewrite P in K.
    assert (HH : held s = [t]) by (unfold held; rewrite P; reflexivity).
    pose proof (not_ran s t V) as NR. rewrite HH in NR. specialize (NR (or_introl eq_refl)).
    pose proof (v_held _ V t) as VE. rewrite HH in VE. specialize (VE (or_introl eq_refl)).
    apply inv_ev; auto; unfold wl, hand, held, opens, owed, pok, past; cbn [pc at_]; rewrite ?P; auto.
    + intros x [].
    + intros i. rewrite !times_cons, !evif. pose proof (v_take _ V i) as X. unfold hand in X. rewrite P in X. exact X.
    + intros i. rewrite !times_cons, !evif. pose proof (v_done _ V i) as X. unfold opens in X. rewrite P in X. rewrite !cnt_cons, !cnt_nil in *. lia.
    + lia.
    + intros m' Em. injection Em as <-. split.
      * intros [F|F]; congruence.
      * intros t' p q K' E. rewrite K in K'. injection K' as <-. apply ended_cons. unfold ended. tauto.
    + intros b [X|X]; discriminate.
    + intros f X _ R. injection X as <-. apply times_in in R. lia.
    + intros f t' X _ R. injection X as <-. apply times_in in R. lia.
  - assert (A : forall a, earlier a false m false (hist s) -> ended a (hist s)).
    { intros a E. pose proof (v_hand _ V m) as G. unfold hand in G. rewrite P in G. specialize (G (or_introl eq_refl) a E).
      apply (gone_ended _ V a G). unfold hand. rewrite P. intros [<-|[]]. destruct (earlier_pl _ _ _ _ E) as (u & v & Q & I).
      pose proof (nodup_pl _ V false) as N. rewrite Q in N. apply NoDup_remove_2 in N. apply N. apply in_or_app. auto. }
    assert (B : forall fn p, (p = P0 (KFl m) /\ flusher s m \/ (exists t, p = P0 (KCan m t) /\ kindof s m = Some (Cancel t)) \/ p = Fin m /\ kindof s m <> Some Flush /\ kindof s m <> Some Finish /\ (forall t, kindof s m <> Some (Cancel t))) ->
       Inv (mkSt (msgs s) (new s) (cur s) (qlen s) fn p (Ran m :: hist s))).
    { intros fn p Hp. apply inv_ev; auto.
      - unfold wl; cbn [pc]. rewrite P. destruct Hp as [[-> _]|[(t & -> & _)|[-> _]]]; reflexivity.
      - unfold hand; cbn [pc]. destruct Hp as [[-> _]|[(t & -> & _)|[-> _]]]; intros m' [].
      - unfold held; cbn [pc]. destruct Hp as [[-> _]|[(t & -> & _)|[-> _]]]; intros m' [].
      - intros i. rewrite !times_cons, !evif. pose proof (v_take _ V i) as X. unfold hand in *; cbn [pc]. rewrite P in X.
        destruct Hp as [[-> _]|[(t & -> & _)|[-> _]]]; rewrite !cnt_cons, !cnt_nil in *; lia.
      - intros i. rewrite !times_cons, !evif. pose proof (v_done _ V i) as X. unfold opens in *; cbn [pc]. rewrite P in X.
        destruct Hp as [[-> _]|[(t & -> & _)|[-> _]]]; cbn [kopen]; rewrite !cnt_cons, !cnt_nil in *; lia.
      - unfold owed; cbn [pc]. rewrite P. destruct Hp as [[-> _]|[(t & -> & _)|[-> _]]]; reflexivity.
      - unfold pok; cbn [pc]. destruct Hp as [[-> H]|[(t & -> & H)|[-> _]]]; [exact H|exact H|exact I].
      - right. unfold past; cbn [pc]. destruct Hp as [[-> _]|[(t & -> & _)|[-> _]]]; reflexivity.
      - intros m' ->. destruct Hp as [[X _]|[(t & X & _)|[X [H1 [H2 H3]]]]]; try discriminate. injection X as ->. split.
        + intros [F|F]; tauto.
        + intros t p q K. exfalso. exact (H3 t K).
      - intros b [X|X]; [injection X as <-; exact A|discriminate].
      - discriminate.
      - discriminate. }
    fold (kindof s m). destruct (kindof s m) as [[| |t|]|] eqn:K; unfold at_; apply B.
    + right. right. repeat split; congruence.
    + left. split; [reflexivity|]. left. exact K.
    + right. left. exists t. auto.
    + left. split; [reflexivity|]. right. exact K.
    + right. right. repeat split; congruence.
  - destruct (v_fin _ V m P) as [A B].
    apply inv_ev; auto; unfold wl, hand, held, opens, owed, pok, past; cbn [pc at_]; rewrite ?P; auto.
    + intros i. rewrite !times_cons, !evif. pose proof (v_take _ V i) as X. unfold hand in X. rewrite P in X. exact X.
    + intros i. rewrite !times_cons, !evif. pose proof (v_done _ V i) as X. unfold opens in X. rewrite P in X. rewrite !cnt_cons, !cnt_nil in *. lia.
    + discriminate.
    + intros b [X|X]; discriminate.
    + intros f X F _. injection X as <-. exact (A F).
    + intros f t X F _ p q. injection X as <-. apply B. exact F.
Qed.

(** * Steps of the posters *)
Lemma done_pushed s i : Inv s -> 1 <= cnt i (opens s) + times (Done i) (hist s) -> 1 <= times (Push i true) (hist s) + times (Push i false) (hist s).
Proof. intros V D. pose proof (v_out _ V i). pose proof (v_take _ V i). pose proof (v_done _ V i). lia. Qed.

Lemma inv_cl s ms ql : Inv s -> let s' := mkSt ms (new s) (cur s) ql (fin s) (pc s) (hist s) in
  (forall i b, pin ms i b = pin (msgs s) i b) -> (forall m k, kindof s m = Some k -> kindof s' m = Some k) ->
  (forall m k, kindof s' m = Some k -> kindof s m = Some k \/ pin (msgs s) m true + pin (msgs s) m false = 0) ->
  (ql + csum ms = qlen s + csum (msgs s))%Z -> Inv s'.
Proof.
  intros V s' E1 E2 E3 E4.
  assert (PK : forall m k, kindof s' m = Some k -> 1 <= cnt m (opens s) + times (Done m) (hist s) -> kindof s m = Some k).
  { intros m k K D. destruct (E3 m k K) as [X|X]; [exact X|]. apply (done_pushed s m V) in D. rewrite !(v_push _ V) in D. lia. }
  assert (PF : forall m, flusher s' m -> 1 <= cnt m (opens s) + times (Done m) (hist s) -> flusher s m).
  { intros m [K|K] D; [left|right]; apply PK; auto. }
  assert (FF : forall m, flusher s m -> flusher s' m) by (intros m [K|K]; [left|right]; auto).
  pose proof V as V0. destruct V as [VL VP VO VT VD VN VK VA VH VF VE F1 F2 F3 F4].
  constructor; cbn [msgs new cur qlen fin pc hist s']; auto.
  - intros i b. rewrite VP, E1. reflexivity.
  - unfold wl, owed, s' in *. cbn [pc] in *. lia.
  - unfold pok, s' in *. cbn [pc] in *. destruct (pc s) as [|c|c|c m|c m|k|k p|k l|k l|m t|m t|m t|m|m]; auto;
      try (destruct c; cbn in *; auto); destruct k as [c| |]; try (destruct c); cbn in *; auto.
  - intros m P. assert (D : 1 <= cnt m (opens s) + times (Done m) (hist s)).
    { unfold opens. rewrite P, cnt_cons, Nat.eqb_refl. cbn. lia. }
    destruct (VF m P) as [A B]. split.
    + intros F. apply A. apply PF; auto.
    + intros t p q K. apply B. apply PK; auto.
  - intros f F x y E R. apply (F3 f) with (x := x); auto. apply PF; auto. 
    assert (1 <= times (Done f) (hist s)) by (rewrite E; apply times_in, in_or_app; right; left; reflexivity). lia.
  - intros f t F x y p q E R. apply (F4 f t) with (x := x); auto. apply PK; auto. 
    assert (1 <= times (Done f) (hist s)) by (rewrite E; apply times_in, in_or_app; right; left; reflexivity). lia.
Qed.

Lemma csum_upd ms i m m' : nth_error ms i = Some m -> csum (upd ms i m') = (csum ms - pcount (cp m) + pcount (cp m'))%Z.
Proof.
  revert i. induction ms as [|a ms IH]; intros [|i] E; cbn in *; try discriminate.
  - injection E as ->. lia.
  - fold (csum (upd ms i m')). fold (csum ms). rewrite (IH i E). lia.
Qed.
Lemma csum_app a b : csum (a ++ b) = (csum a + csum b)%Z.
Proof. induction a as [|x a IH]; cbn; [reflexivity|]. fold (csum (a ++ b)). fold (csum a). rewrite IH. lia. Qed.
Lemma nth_upd ms i (m : msg) j : nth_error ms i <> None -> nth_error (upd ms i m) j = if j =? i then Some m else nth_error ms j.
Proof.
  intros L. destruct (j =? i) eqn:Q.
  - apply Nat.eqb_eq in Q. subst j. apply nth_error_upd_eq. apply nth_error_Some. exact L.
  - apply Nat.eqb_neq in Q. apply nth_error_upd_ne. auto.
Qed.

Lemma push_ok s i m h : Inv s -> nth_error (msgs s) i = Some m -> cp m = CCas h ->
  Inv (mkSt (upd (msgs s) i (mkMsg (kd m) (prio m) CInc)) (if prio m then new s else i :: new s)
            (if prio m then i :: cur s else cur s) (qlen s) (fin s) (pc s) (Push i (prio m) :: hist s)).
Proof.
  intros V N C. assert (NPU : forall r, ~ In (Push i r) (hist s)) by (apply (not_pushed s V i m N); rewrite C; reflexivity).
  assert (NG : ~ gone i (hist s)) by (intros G; destruct (gone_pushed s V i G) as (r & I); exact (NPU r I)).
  assert (NT : times (Take i) (hist s) + times (Cancelled i) (hist s) = 0).
  { pose proof (v_out _ V i) as O. rewrite !(v_push _ V) in O. unfold pin in O. rewrite N, C in O. cbn in O. lia. }
  assert (KI : forall j, option_map kd (nth_error (upd (msgs s) i (mkMsg (kd m) (prio m) CInc)) j) = kindof s j).
  { intros j. rewrite nth_upd by congruence. destruct (j =? i) eqn:Q; [|reflexivity]. apply Nat.eqb_eq in Q. subst j. unfold kindof. rewrite N. reflexivity. }
  assert (OI : forall j, 1 <= cnt j (opens s) + times (Done j) (hist s) + cnt j (hand s) -> j <> i).
  { intros j D ->. pose proof (v_take _ V i). pose proof (v_done _ V i). lia. }
  assert (EB : forall a p b q, b <> i -> earlier a p b q (Push i (prio m) :: hist s) -> earlier a p b q (hist s)).
  { intros a p b q Nb. apply earlier_cons. congruence. }
  pose proof (v_out _ V) as VO0. destruct V as [VL VP VO VT VD VN VK VA VH VF VE F1 F2 F3 F4].
  constructor; cbn [msgs new cur qlen fin pc hist].
  - unfold wl in *. cbn [pc]. destruct VL as (od & E & F). rewrite !live_push by exact NG. destruct (prio m); cbn [Bool.eqb app rev].
    + exists od. rewrite E. auto.
    + exists od. split; [exact E|]. rewrite <- F, <- !app_assoc. reflexivity.
  - intros j b. rewrite times_push, VP. unfold pin. rewrite nth_upd by congruence. rewrite (Nat.eqb_sym i j). destruct (j =? i) eqn:Q; [|reflexivity].
    apply Nat.eqb_eq in Q. subst j. rewrite N, C. cbn. lia.
  - intros j. specialize (VO j). rewrite !times_push. rewrite !times_cons, !evif. lia.
  - intros j. rewrite !times_cons, !evif. apply VT.
  - intros j. rewrite !times_cons, !evif. apply VD.
  - rewrite (csum_upd _ _ m) by exact N. rewrite C. cbn [cp pcount]. unfold wl, owed in *. cbn [pc]. rewrite VN. destruct (prio m); cbn [length]; lia.
  - clear - VK KI. unfold pok, kok, cok, flusher, kindof in *. cbn [pc msgs]. 
    destruct (pc s) as [|c|c|c x|c x|k|k p|k l|k l|x t|x t|x t|x|x]; auto; rewrite ?KI; auto; try (destruct c; rewrite ?KI; auto); destruct k as [c| |]; try (destruct c); rewrite ?KI; auto.
  - intros f P a p q I X. change (past s = Some f) in P. destruct (Nat.eq_dec a i) as [->|Na].
    + destruct X as (x & y & z & X). destruct x as [|e' x]; cbn in X; injection X as X1 X2.
      * apply (NPU p). rewrite H. apply in_or_app. right. left. reflexivity.
      * apply (NPU p). rewrite X2. apply in_or_app. right. right. apply in_or_app. right. left. reflexivity.
    + apply EB in X.
      * apply (VA f P a p q); [|exact X]. destruct (prio m); [exact I|]. destruct I as [I|I]; [congruence|exact I].
      * apply OI. assert (In f (opens s)) as J.
        { clear - P. unfold past, opens in *. destruct (pc s) as [|c|c|c x|c x|k|k p|k l|k l|x t|x t|x t|x|x]; try discriminate;
            try (destruct c; try discriminate); try (destruct k as [c| |]; try (destruct c); try discriminate); cbn in *; injection P as ->; auto. }
        apply (count_occ_In Nat.eq_dec) in J. unfold cnt. lia.
  - intros x I a X. change (In x (hand s)) in I. apply gone_cons. apply EB in X; [apply (VH x I a X)|].
    apply OI. apply (count_occ_In Nat.eq_dec) in I. unfold cnt. lia.
  - intros f P. assert (Nf : f <> i).
    { apply OI. unfold opens. rewrite P, cnt_cons, Nat.eqb_refl. cbn. lia. }
    destruct (VF f P) as [A B]. split.
    + intros F a p q X. apply EB in X; [|exact Nf]. apply ended_cons. apply (A) with (p := p) (q := q); [|exact X].
      unfold flusher in *. unfold kindof at 1 2 in F. cbn [msgs] in F. rewrite KI in F. exact F.
    + intros t p q F X. apply EB in X; [|exact Nf]. apply ended_cons. apply (B t p q); [|exact X].
      unfold kindof in F. cbn [msgs] in F. rewrite KI in F. exact F.
  - intros x I. cbn. specialize (VE x I). tauto.
  - split; [exact F1|exact I].
  - split; [exact F2|exact I].
  - intros f F. apply clears_cons; [discriminate|]. apply F3. unfold flusher in *. unfold kindof at 1 2 in F. cbn [msgs] in F. rewrite KI in F. exact F.
  - intros f t F. apply clears1_cons; [discriminate|]. apply F4. unfold kindof in F. cbn [msgs] in F. rewrite KI in F. exact F.
Qed.

Lemma cstep_ok s i s' : Inv s -> cstep i s = Some s' -> Inv s'.
Proof.
  intros V E. unfold cstep in E. destruct (nth_error (msgs s) i) as [m|] eqn:N; [|discriminate].
  assert (U : forall c ql, cin c = cin (cp m) -> (ql + pcount c = qlen s + pcount (cp m))%Z ->
     Inv (mkSt (upd (msgs s) i (mkMsg (kd m) (prio m) c)) (new s) (cur s) ql (fin s) (pc s) (hist s))).
  { intros c ql C Q. apply inv_cl; auto.
    - intros j b. unfold pin. rewrite nth_upd by congruence. destruct (j =? i) eqn:J; [|reflexivity]. apply Nat.eqb_eq in J. subst j. rewrite N. cbn. rewrite C. reflexivity.
    - intros j k. unfold kindof. cbn [msgs]. rewrite nth_upd by congruence. destruct (j =? i) eqn:J; [|auto]. apply Nat.eqb_eq in J. subst j. rewrite N. auto.
    - intros j k. unfold kindof. cbn [msgs]. rewrite nth_upd by congruence. destruct (j =? i) eqn:J; [|auto]. apply Nat.eqb_eq in J. subst j. rewrite N. auto.
    - rewrite (csum_upd _ _ m) by exact N. cbn [cp]. lia. }
  destruct (cp m) as [|h| |] eqn:C.
  - injection E as <-. apply U; reflexivity.
  - destruct (sameh _ h).
    + injection E as <-. apply (push_ok s i m h); auto.
    + injection E as <-. apply U; reflexivity.
  - injection E as <-. apply U; cbn; lia.
  - discriminate.
Qed.

Lemma init_inv : Inv init.
Proof.
  constructor; cbn; auto; try discriminate; try tauto.
  - exists []. auto.
  - intros i b. unfold pin. cbn. destruct i; reflexivity.
  - intros f _ [|? ?] y E; discriminate.
  - intros f t _ [|? ?] y p q E; discriminate.
Qed.
Lemma step_ok a s s' : Inv s -> step a s = Some s' -> Inv s'.
Proof.
  intros V E. destruct a as [k pr|i|]; cbn in E.
  - injection E as <-. apply inv_cl; auto.
    + intros i b. unfold pin. destruct (Nat.lt_ge_cases i (length (msgs s))).
      * rewrite nth_error_app1 by assumption. reflexivity.
      * rewrite nth_error_app2 by assumption. rewrite (proj2 (nth_error_None (msgs s) i)) by lia. destruct (i - length (msgs s)) as [|[|]]; reflexivity.
    + intros m q. unfold kindof. cbn [msgs]. destruct (nth_error (msgs s) m) eqn:N; [|discriminate].
      rewrite nth_error_app1, N by (apply nth_error_Some; congruence). auto.
    + intros m q. unfold kindof, pin. cbn [msgs]. destruct (nth_error (msgs s) m) eqn:N; [|auto].
      rewrite nth_error_app1, N by (apply nth_error_Some; congruence). auto.
    + rewrite csum_app. cbn. lia.
  - apply (cstep_ok s i s' V E).
  - injection E as <-. apply wstep_ok. exact V.
Qed.
Lemma run_ok l : forall s s', Inv s -> run l s = Some s' -> Inv s'.
Proof.
  induction l as [|a l IH]; cbn; intros s s' V E; [injection E as <-; exact V|].
  destruct (step a s) as [s1|] eqn:S; [|discriminate]. apply (IH s1 s'); [|exact E]. apply (step_ok a s); auto.
Qed.
