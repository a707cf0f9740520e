(** Lemmas about the one-shot set of sockets *)
From Verif Require Import Common EpSel_Spec EpSel_Model.
From Coq Require Import ZifyBool Permutation.
Open Scope Z_scope.

(** what the heap operations keep *)
Definition core (i : info) : option Z * Z * Z := (tmo i, wfor i, udata i).
Definition same (s s' : st) : Prop := length (socks s') = length (socks s) /\ forall g, core (sock s' g) = core (sock s g).
Definition K (s : st) : Prop := NoDup (heap s) /\ forall f, In f (heap s) -> (f < length (socks s))%nat.
Definition R (s : st) (P : nat -> Prop) : Prop := forall i, (i < length (heap s))%nat -> P i -> tref (sock s (nth i (heap s) O)) = Some i.
Definition all (_ : nat) : Prop := True.

Lemma sock_setRef : forall s fd r g, (fd < length (socks s))%nat -> sock (setRef s fd r) g = if Nat.eqb g fd then mkI (tmo (sock s fd)) (wfor (sock s fd)) (udata (sock s fd)) r else sock s g.
Proof.
  intros s fd r g H. unfold setRef, withSock, sock at 1. cbn [socks]. destruct (Nat.eqb_spec g fd) as [E|N]; [rewrite E; apply nth_upd_eq; exact H|apply nth_upd_ne; auto].
Qed.
Lemma upd_out : forall A (l : list A) i x, (length l <= i)%nat -> upd l i x = l.
Proof. intros A. induction l as [|a l IH]; intros [|i] x H; cbn in *; try reflexivity; [lia|]. f_equal. apply IH. lia. Qed.
Lemma core_setRef : forall s fd r g, core (sock (setRef s fd r) g) = core (sock s g).
Proof.
  intros s fd r g. destruct (lt_dec fd (length (socks s))) as [L|L].
  - rewrite sock_setRef by assumption. destruct (Nat.eqb_spec g fd) as [->|N]; reflexivity.
  - unfold setRef, withSock, sock at 1. cbn [socks]. rewrite upd_out by lia. reflexivity.
Qed.
Lemma len_setRef : forall s fd r, length (socks (setRef s fd r)) = length (socks s).
Proof. intros. unfold setRef, withSock. cbn [socks]. apply upd_length. Qed.
Lemma tref_setRef : forall s fd r g, (fd < length (socks s))%nat -> tref (sock (setRef s fd r) g) = if Nat.eqb g fd then r else tref (sock s g).
Proof. intros s fd r g H. rewrite sock_setRef by assumption. destruct (Nat.eqb g fd); reflexivity. Qed.

(** *** swapping two entries *)
Definition sw (h : list nat) (i j : nat) : list nat := upd (upd h i (nth j h O)) j (nth i h O).
Lemma sw_len : forall h i j, length (sw h i j) = length h.
Proof. intros. unfold sw. rewrite !upd_length. reflexivity. Qed.
Lemma sw_nth : forall h i j k, (i < length h)%nat -> (j < length h)%nat -> nth k (sw h i j) O = nth (if Nat.eqb k j then i else if Nat.eqb k i then j else k) h O.
Proof.
  intros h i j k Hi Hj. unfold sw. destruct (Nat.eqb_spec k j) as [E|N]; [rewrite E; apply nth_upd_eq; rewrite upd_length; assumption|]. rewrite nth_upd_ne by auto.
  destruct (Nat.eqb_spec k i) as [E|N2]; [rewrite E; apply nth_upd_eq; assumption|]. apply nth_upd_ne. auto.
Qed.
Lemma sw_in : forall h i j x, (i < length h)%nat -> (j < length h)%nat -> In x (sw h i j) <-> In x h.
Proof.
  intros h i j x Hi Hj. split; intros H; apply (In_nth _ _ O) in H as (k & Hk & <-).
  - rewrite sw_len in Hk. rewrite sw_nth by assumption. apply nth_In. destruct (Nat.eqb k j), (Nat.eqb k i); assumption.
  - set (m := if Nat.eqb k j then i else if Nat.eqb k i then j else k). assert (E : nth k h O = nth m (sw h i j) O).
    { rewrite sw_nth by assumption. unfold m. destruct (Nat.eqb_spec k j), (Nat.eqb_spec k i); subst; rewrite ?Nat.eqb_refl; try reflexivity.
      - destruct (Nat.eqb_spec i j); subst; reflexivity.
      - destruct (Nat.eqb_spec k j); [lia|]. destruct (Nat.eqb_spec k i); [lia|]. reflexivity. }
    rewrite E. apply nth_In. rewrite sw_len. unfold m. destruct (Nat.eqb k j), (Nat.eqb k i); assumption.
Qed.
Lemma sw_nodup : forall h i j, (i < length h)%nat -> (j < length h)%nat -> NoDup h -> NoDup (sw h i j).
Proof.
  intros h i j Hi Hj D. apply (NoDup_nth _ O). rewrite sw_len. intros a b Ha Hb E. rewrite !sw_nth in E by assumption.
  rewrite (NoDup_nth h O) in D. apply D in E.
  - revert E. destruct (Nat.eqb_spec a j), (Nat.eqb_spec a i), (Nat.eqb_spec b j), (Nat.eqb_spec b i); lia.
  - destruct (Nat.eqb a j), (Nat.eqb a i); assumption.
  - destruct (Nat.eqb b j), (Nat.eqb b i); assumption.
Qed.
Definition mv (s s' : st) : Prop := K s' /\ R s' all /\ same s s' /\ (forall x, In x (heap s') <-> In x (heap s)) /\ length (heap s') = length (heap s)
  /\ (forall g, ~ In g (heap s) -> tref (sock s' g) = tref (sock s g)).
Lemma same_refl : forall s, same s s.
Proof. intros. split; auto. Qed.
Lemma same_trans : forall a b c, same a b -> same b c -> same a c.
Proof. intros a b c [H1 H2] [H3 H4]. split; [congruence|]. intros g. rewrite H4. apply H2. Qed.
Lemma mv_refl : forall s, K s -> R s all -> mv s s.
Proof. intros s H1 H2. repeat split; auto; apply H1. Qed.
Lemma mv_trans : forall a b c, mv a b -> mv b c -> mv a c.
Proof.
  intros a b c (A1 & A2 & A3 & A4 & A5 & A6) (B1 & B2 & B3 & B4 & B5 & B6). split; [assumption|]. split; [assumption|]. split; [eapply same_trans; eauto|].
  split; [intros x; rewrite B4; apply A4|]. split; [congruence|]. intros g H. rewrite B6; [auto|]. rewrite A4. exact H.
Qed.
Lemma swap_mv : forall s i j, K s -> R s (fun k => k <> i /\ k <> j) -> (i < length (heap s))%nat -> (j < length (heap s))%nat -> i <> j ->
  mv s (swapE s i j) /\ heap (swapE s i j) = sw (heap s) i j.
Proof.
  intros s i j [D F] HR Hi Hj N. set (a := nth i (heap s) O). set (b := nth j (heap s) O).
  assert (Ha : (a < length (socks s))%nat) by (apply F, nth_In; assumption). assert (Hb : (b < length (socks s))%nat) by (apply F, nth_In; assumption).
  assert (HH : heap (swapE s i j) = sw (heap s) i j) by reflexivity.
  set (s1 := mkS (socks s) (sw (heap s) i j)). assert (E : swapE s i j = setRef (setRef s1 b (Some i)) a (Some j)) by reflexivity.
  assert (T : forall g, tref (sock (swapE s i j) g) = if Nat.eqb g a then Some j else if Nat.eqb g b then Some i else tref (sock s g)).
  { intros g. rewrite E, tref_setRef by (rewrite len_setRef; exact Ha). destruct (Nat.eqb g a); [reflexivity|]. rewrite tref_setRef by exact Hb. reflexivity. }
  assert (AB : a <> b). { intros Q. apply N. apply (proj1 (NoDup_nth (heap s) O) D); assumption. }
  split; [|exact HH]. split; [|split; [|split; [|split; [|split]]]].
  - split; rewrite HH; [apply sw_nodup; assumption|]. intros f Hf. apply sw_in in Hf; [|assumption|assumption]. rewrite E, !len_setRef. apply F, Hf.
  - intros k Hk _. rewrite HH in *. rewrite sw_len in Hk. rewrite T, sw_nth by assumption. destruct (Nat.eqb_spec k j) as [EJ|NJ].
    + fold a. rewrite Nat.eqb_refl. congruence.
    + destruct (Nat.eqb_spec k i) as [EI|NI]. { fold b. destruct (Nat.eqb_spec b a); [congruence|]. rewrite Nat.eqb_refl. congruence. }
      destruct (Nat.eqb_spec (nth k (heap s) O) a) as [Q|Q]. { exfalso. apply NI. apply (proj1 (NoDup_nth (heap s) O) D); assumption. }
      destruct (Nat.eqb_spec (nth k (heap s) O) b) as [Q2|Q2]. { exfalso. apply NJ. apply (proj1 (NoDup_nth (heap s) O) D); assumption. }
      apply HR; auto.
  - split; [rewrite E, !len_setRef; reflexivity|]. intros g. rewrite E, !core_setRef. reflexivity.
  - intros x. rewrite HH. apply sw_in; assumption.
  - rewrite HH. apply sw_len.
  - intros g Hg. rewrite T. destruct (Nat.eqb_spec g a) as [->|]; [exfalso; apply Hg, nth_In; assumption|]. destruct (Nat.eqb_spec g b) as [->|]; [exfalso; apply Hg, nth_In; assumption|reflexivity].
Qed.
Lemma R_weak : forall s (P : nat -> Prop), R s all -> R s P.
Proof. intros s P H i Hi _. apply H; [assumption|exact I]. Qed.
Lemma up_mv : forall fuel s c, K s -> R s all -> (c < length (heap s))%nat -> mv s (siftUp fuel s c).
Proof.
  induction fuel as [|f IH]; intros s c HK HR Hc; cbn [siftUp]; [apply mv_refl; assumption|].
  destruct (Nat.eqb_spec c 0) as [Z|Z]; [apply mv_refl; assumption|]. set (p := ((c - 1) / 2)%nat).
  assert (P : (p < c)%nat) by (unfold p; apply Nat.div_lt_upper_bound; lia).
  destruct (later s _ _); [|apply mv_refl; assumption]. destruct (swap_mv s p c HK (R_weak _ _ HR) ltac:(lia) Hc ltac:(lia)) as (M & _).
  eapply mv_trans; [exact M|]. destruct M as (M1 & M2 & _ & _ & M5 & _). apply IH; auto. lia.
Qed.
Lemma down_mv : forall fuel s n r, K s -> R s all -> (n <= length (heap s))%nat -> mv s (siftDown fuel s n r) /\ forall k, (n <= k)%nat -> nth k (heap (siftDown fuel s n r)) O = nth k (heap s) O.
Proof.
  induction fuel as [|f IH]; intros s n r HK HR Hn; cbn [siftDown]; [split; [apply mv_refl; assumption|auto]|].
  destruct (Nat.ltb_spec (r * 2 + 1) n) as [L|L]; [|split; [apply mv_refl; assumption|auto]].
  match goal with |- context [if ?b then (r * 2 + 1 + 1)%nat else (r * 2 + 1)%nat] => set (c := if b then (r * 2 + 1 + 1)%nat else (r * 2 + 1)%nat) end. assert (C : (c < n)%nat /\ (r < c)%nat).
  { unfold c. destruct (Nat.ltb_spec (r * 2 + 1 + 1) n); cbn [andb]; [destruct (later s _ _)|]; lia. }
  clearbody c.
  destruct (later s _ _); [|split; [apply mv_refl; assumption|auto]].
  destruct (swap_mv s r c HK (R_weak _ _ HR) ltac:(lia) ltac:(lia) ltac:(lia)) as (M & HH). pose proof M as (M1 & M2 & _ & _ & M5 & _).
  destruct (IH (swapE s r c) n c M1 M2 ltac:(lia)) as (A & B). split; [eapply mv_trans; eassumption|].
  intros k Hk. rewrite B by assumption. rewrite HH, sw_nth by lia. destruct (Nat.eqb_spec k c); [lia|]. destruct (Nat.eqb_spec k r); [lia|reflexivity].
Qed.
(** *** removing a timeout *)
Lemma firstn_last : forall A (l : list A) d, l <> [] -> l = firstn (length l - 1) l ++ [nth (length l - 1) l d].
Proof.
  intros A l d H. rewrite <- (firstn_skipn (length l - 1) l) at 1. f_equal. destruct l as [|x l] using rev_ind; [contradiction|].
  rewrite app_length. cbn [length]. replace (length l + 1 - 1)%nat with (length l) by lia. rewrite skipn_app, skipn_all, Nat.sub_diag, nth_middle. reflexivity.
Qed.
Lemma nth_firstn : forall A n (l : list A) i d, (i < n)%nat -> nth i (firstn n l) d = nth i l d.
Proof. induction n as [|n IH]; intros l i d H; [lia|]. destruct l; [destruct i; reflexivity|]. destruct i; cbn; [reflexivity|]. apply IH. lia. Qed.
Lemma cut_ok : forall s o, K s -> (forall i, (S i < length (heap s))%nat -> tref (sock s (nth i (heap s) O)) = Some i) -> heap s <> [] -> nth (length (heap s) - 1) (heap s) O = o ->
  let s' := mkS (socks s) (firstn (length (heap s) - 1) (heap s)) in
  K s' /\ R s' all /\ (forall x, In x (heap s') <-> In x (heap s) /\ x <> o) /\ S (length (heap s')) = length (heap s).
Proof.
  intros s o [D F] HR NE EO s'. pose proof (firstn_last _ (heap s) O NE) as FL. rewrite EO in FL. assert (L : length (heap s) <> O) by (destruct (heap s); [contradiction|discriminate]).
  assert (LS : S (length (heap s')) = length (heap s)) by (unfold s'; cbn [heap]; rewrite firstn_length; lia).
  assert (DD : NoDup (firstn (length (heap s) - 1) (heap s) ++ [o])) by (rewrite <- FL; exact D).
  assert (IN : forall x, In x (heap s') <-> In x (heap s) /\ x <> o).
  { intros x. rewrite FL. unfold s'. cbn [heap]. rewrite in_app_iff. cbn [In]. apply NoDup_remove in DD as (_ & DD). rewrite app_nil_r in DD.
    split; [intros H; split; [left; exact H|intros ->; contradiction]|]. intros ([H|[H|[]]] & N); [exact H|congruence]. }
  split; [split|split; [|split; assumption]].
  - unfold s'. cbn [heap]. apply NoDup_remove in DD as (DD & _). rewrite app_nil_r in DD. exact DD.
  - intros f Hf. apply F. apply IN, Hf.
  - intros i Hi _. unfold s' in *. cbn [heap] in *. rewrite nth_firstn by (rewrite firstn_length in Hi; lia). apply HR. lia.
Qed.
Lemma remove_ok : forall s fd, K s -> R s all -> (fd < length (socks s))%nat -> let s' := removeOldTm s fd in
  K s' /\ R s' all /\ same s s' /\ (forall x, In x (heap s') -> In x (heap s)) /\ ~ In fd (heap s')
  /\ ((In fd (heap s) \/ forall k, tref (sock s fd) = Some k -> (length (heap s) <= k)%nat) -> forall x, In x (heap s) -> x <> fd -> In x (heap s'))
  /\ ((In fd (heap s) \/ forall k, tref (sock s fd) = Some k -> (length (heap s) <= k)%nat) ->
       (forall g, ~ In g (heap s) -> g <> fd -> tref (sock s' g) = tref (sock s g)) /\ (forall k, tref (sock s' fd) = Some k -> (length (heap s') <= k)%nat)).
Proof.
  intros s fd HK HR Hfd. cbv zeta. unfold removeOldTm. destruct (tref (sock s fd)) as [pos|] eqn:ET.
  2: { assert (NI : ~ In fd (heap s)). { intros H. apply (In_nth _ _ O) in H as (i & Hi & E). pose proof (HR i Hi I) as Q. rewrite E, ET in Q. discriminate. }
       split; [assumption|]. split; [assumption|]. split; [apply same_refl|]. split; [auto|]. split; [assumption|]. split; [auto|]. intros _. split; [auto|]. intros k Q. rewrite ET in Q. discriminate. }
  set (s1 := setRef s fd None). assert (S1 : same s s1) by (split; [apply len_setRef|intros g; apply core_setRef]).
  assert (T1 : forall g, tref (sock s1 g) = if Nat.eqb g fd then None else tref (sock s g)) by (intros g; apply tref_setRef; assumption).
  change (heap s1) with (heap s). destruct (Nat.leb_spec (length (heap s)) pos) as [L|L].
  - assert (NI : ~ In fd (heap s)). { intros H. apply (In_nth _ _ O) in H as (i & Hi & E). pose proof (HR i Hi I) as Q. rewrite E, ET in Q. injection Q as ->. lia. }
    split; [split; [apply HK|intros f Hf; unfold s1; rewrite len_setRef; apply HK, Hf]|].
    split; [intros i Hi _; change (heap s1) with (heap s); rewrite T1; destruct (Nat.eqb_spec (nth i (heap s) O) fd) as [Q|Q]; [exfalso; apply NI; rewrite <- Q; apply nth_In; exact Hi|apply HR; [exact Hi|exact I]]|].
    split; [assumption|]. split; [auto|]. split; [assumption|]. split; [auto|]. intros _. split.
    + intros g _ N. rewrite T1. destruct (Nat.eqb_spec g fd); [contradiction|reflexivity].
    + intros k Q. rewrite T1, Nat.eqb_refl in Q. discriminate.
  - set (n := (length (heap s) - 1)%nat). set (o := nth pos (heap s) O).
    assert (FO : In fd (heap s) -> o = fd). { intros H. apply (In_nth _ _ O) in H as (i & Hi & E). pose proof (HR i Hi I) as Q. rewrite E, ET in Q. injection Q as ->. exact E. }
    assert (K1 : K s1) by (split; [apply HK|intros f Hf; unfold s1; rewrite len_setRef; apply HK, Hf]).
    assert (R1 : forall i, (i < length (heap s))%nat -> i <> pos -> tref (sock s1 (nth i (heap s) O)) = Some i).
    { intros i Hi Np. rewrite T1. destruct (Nat.eqb_spec (nth i (heap s) O) fd) as [Q|Q]; [|apply HR; [exact Hi|exact I]].
      exfalso. apply Np. assert (HI : In fd (heap s)) by (rewrite <- Q; apply nth_In; exact Hi). apply FO in HI. apply (proj1 (NoDup_nth (heap s) O) (proj1 HK)); auto. fold o. congruence. }
    (* the entry goes to the end *)
    assert (P : exists s2, popAt s1 pos = s2 /\ K s2 /\ same s1 s2 /\ (forall x, In x (heap s2) <-> In x (heap s)) /\ length (heap s2) = length (heap s)
              /\ nth n (heap s2) O = o /\ (forall i, (S i < length (heap s))%nat -> tref (sock s2 (nth i (heap s2) O)) = Some i)
              /\ (forall g, ~ In g (heap s) -> tref (sock s2 g) = tref (sock s1 g)) /\ (forall k, tref (sock s2 o) = Some k -> (n <= k)%nat \/ o <> fd)).
    { eexists. split; [reflexivity|]. unfold popAt. change (heap s1) with (heap s). destruct (Nat.ltb_spec pos (length (heap s))) as [_|Q]; [|lia]. fold n.
      destruct (Nat.ltb_spec pos n) as [LN|LN].
      - destruct (swap_mv s1 pos n K1) as (M & HH); [|change (heap s1) with (heap s); assumption|change (heap s1) with (heap s); lia|lia|].
        { intros i Hi (Q1 & Q2). apply R1; assumption. }
        pose proof M as (M1 & M2 & M3 & M4 & M5 & M6). change (heap s1) with (heap s) in *.
        destruct (down_mv n (swapE s1 pos n) n 0 M1 M2 ltac:(lia)) as (A & B). pose proof A as (A1 & A2 & A3 & A4 & A5 & A6).
        set (s2 := siftDown n (swapE s1 pos n) n 0) in *. split; [assumption|]. split; [eapply same_trans; eassumption|]. split; [intros x; rewrite A4; apply M4|]. split; [congruence|].
        assert (NO : nth n (heap s2) O = o). { rewrite B by lia. rewrite HH, sw_nth by lia. rewrite Nat.eqb_refl. reflexivity. }
        split; [exact NO|]. split; [intros i Hi; apply A2; [lia|exact I]|]. split.
        + intros g Hg. rewrite A6 by (rewrite M4; exact Hg). apply M6. exact Hg.
        + intros k Q. left. rewrite <- NO in Q. rewrite (A2 n ltac:(lia) I) in Q. injection Q as <-. lia.
      - assert (pos = n) by lia. split; [assumption|]. split; [apply same_refl|]. split; [reflexivity|]. split; [reflexivity|]. change (heap s1) with (heap s).
        split; [unfold o; congruence|]. split; [intros i Hi; apply R1; lia|]. split; [auto|]. intros k Q. destruct (Nat.eq_dec o fd) as [E|E]; [|auto]. rewrite T1, E, Nat.eqb_refl in Q. discriminate. }
    destruct P as (s2 & -> & P1 & P2 & P3 & P4 & P5 & P6 & P7 & P8).
    destruct (cut_ok s2 o P1) as (C1 & C2 & C3 & C4); [rewrite P4; exact P6|intros Q; rewrite Q in P4; cbn in P4; lia|rewrite P4; exact P5|].
    set (s3 := mkS (socks s2) (firstn (length (heap s2) - 1) (heap s2))) in *.
    assert (SA : same s s3) by (eapply same_trans; [exact S1|exact P2]).
    split; [assumption|]. split; [assumption|]. split; [assumption|]. split; [intros x H; apply P3, C3, H|].
    split. { intros H. apply C3 in H as (H & N). apply P3 in H. apply N. symmetry. auto. }
    split. { intros [H|H] x Hx Nx; [apply C3; split; [apply P3; exact Hx|rewrite FO; assumption]|]. exfalso. specialize (H pos eq_refl). lia. }
    intros [H|H]; [|exfalso; specialize (H pos eq_refl); lia]. specialize (FO H). split.
    + intros g Hg N. change (sock s3 g) with (sock s2 g). rewrite P7 by assumption. rewrite T1. destruct (Nat.eqb_spec g fd); [contradiction|reflexivity].
    + intros k Q. change (sock s3 fd) with (sock s2 fd) in Q. rewrite <- FO in Q. destruct (P8 k Q) as [G|G]; [lia|congruence].
Qed.

(** *** the whole object *)
Definition J (s : st) : Prop := K s /\ R s all /\ forall f, In f (heap s) -> wfor (sock s f) <> 0 /\ tmo (sock s f) <> None.
Definition CH (s : st) (h : list ev) : Prop := forall fd, charged h fd = if wfor (sock s fd) =? 0 then None else Some (udata (sock s fd), tmo (sock s fd)).
Definition last_is (h : list ev) (g : nat) : Prop := exists d fl r, h = EDeliver g d fl :: r.
Definition Dx (s : st) (h : list ev) : Prop :=
  (forall fd, wfor (sock s fd) <> 0 -> tmo (sock s fd) <> None -> In fd (heap s))
  /\ (forall g k, ~ In g (heap s) -> tref (sock s g) = Some k -> (length (heap s) <= k)%nat /\ last_is h g).
Definition calm (s : st) (fd : nat) : Prop := In fd (heap s) \/ forall k, tref (sock s fd) = Some k -> (length (heap s) <= k)%nat.
Lemma core_inv : forall a b, core a = core b -> tmo a = tmo b /\ wfor a = wfor b /\ udata a = udata b.
Proof. intros a b H. unfold core in H. split; [|split]; congruence. Qed.
Lemma sock_with : forall s fd i g, (fd < length (socks s))%nat -> sock (withSock s fd i) g = if Nat.eqb g fd then i else sock s g.
Proof. intros s fd r g H. unfold withSock, sock at 1. cbn [socks]. destruct (Nat.eqb_spec g fd) as [E|N]; [rewrite E; apply nth_upd_eq; exact H|apply nth_upd_ne; auto]. Qed.
Lemma sock_out : forall s g, (length (socks s) <= g)%nat -> sock s g = inone.
Proof. intros s g H. apply nth_overflow, H. Qed.
Lemma in_dec_n : forall (f : nat) l, In f l \/ ~ In f l.
Proof. intros f l. destruct (in_dec Nat.eq_dec f l); auto. Qed.
Lemma dx_calm : forall s h fd, Dx s h -> calm s fd.
Proof. intros s h fd (_ & D). destruct (in_dec_n fd (heap s)) as [H|H]; [left; exact H|right]. intros k E. apply (D fd k H E). Qed.
Lemma J_remove : forall s fd, J s -> (fd < length (socks s))%nat -> J (removeOldTm s fd).
Proof.
  intros s fd (HK & HR & HW) L. destruct (remove_ok s fd HK HR L) as (A1 & A2 & (_ & A3) & A4 & _). split; [assumption|]. split; [assumption|].
  intros f Hf. destruct (core_inv _ _ (A3 f)) as (-> & -> & _). apply HW, A4, Hf.
Qed.
Lemma CH_same : forall s s' h, same s s' -> CH s h -> CH s' h.
Proof. intros s s' h (_ & S) H fd. destruct (core_inv _ _ (S fd)) as (-> & -> & ->). apply H. Qed.
Lemma expire_J : forall n s now, J s -> expire (S n) s now =
  match heap s with [] => (None, s) | f :: _ => if expired now (tmo (sock s f)) then (Some (f, udata (sock s f)), withWait (removeOldTm s f) f 0) else (None, s) end.
Proof.
  intros n s now (HK & HR & HW). cbn [expire]. destruct (heap s) as [|f r] eqn:EH; [reflexivity|]. destruct (expired now _); [|reflexivity]. cbv zeta.
  assert (F : In f (heap s)) by (rewrite EH; left; reflexivity). destruct (remove_ok s f HK HR (proj2 HK f F)) as (_ & _ & (_ & A3) & _). destruct (core_inv _ _ (A3 f)) as (_ & E1 & E2).
  rewrite E1, E2. destruct (Z.eqb_spec (wfor (sock s f)) 0) as [Q|Q]; [exfalso; apply (proj1 (HW f (or_introl eq_refl))); exact Q|reflexivity].
Qed.
Lemma deliver_ok : forall s h fd fl, J s -> CH s h -> (fd < length (socks s))%nat -> wfor (sock s fd) <> 0 -> let d := udata (sock s fd) in
  let s' := withWait (removeOldTm s fd) fd 0 in J s' /\ CH s' (EDeliver fd d fl :: h) /\ (exists tm, charged h fd = Some (d, tm))
  /\ length (socks s') = length (socks s) /\ (Dx s h -> settled (EDeliver fd d fl :: h) -> Dx s' (EDeliver fd d fl :: h)).
Proof.
  intros s h fd fl HJ HC L W. cbv zeta. pose proof HJ as (HK & HR & HW). destruct (remove_ok s fd HK HR L) as (A1 & A2 & (A3l & A3) & A4 & A5 & A6 & A7).
  set (s1 := removeOldTm s fd) in *. assert (L1 : (fd < length (socks s1))%nat) by lia.
  assert (SW : forall g, sock (withWait s1 fd 0) g = if Nat.eqb g fd then mkI (tmo (sock s1 fd)) 0 (udata (sock s1 fd)) (tref (sock s1 fd)) else sock s1 g) by (intros g; unfold withWait; apply sock_with; assumption).
  assert (TR : forall g, tref (sock (withWait s1 fd 0) g) = tref (sock s1 g)) by (intros g; rewrite SW; destruct (Nat.eqb_spec g fd) as [->|]; reflexivity).
  assert (HL : length (socks (withWait s1 fd 0)) = length (socks s)) by (unfold withWait, withSock; cbn [socks]; rewrite upd_length; exact A3l).
  split; [|split; [|split; [|split; [exact HL|]]]].
  - split; [|split]; [split; [apply A1|intros f Hf; rewrite HL, <- A3l; apply A1, Hf]|intros i Hi _; rewrite TR; apply A2; [exact Hi|exact I]|].
    intros f Hf. rewrite SW. destruct (Nat.eqb_spec f fd) as [->|N]; [contradiction|]. destruct (core_inv _ _ (A3 f)) as (-> & -> & _). apply HW, A4, Hf.
  - intros g. cbn [charged]. rewrite SW, (Nat.eqb_sym fd g). destruct (Nat.eqb_spec g fd) as [E|N]; [reflexivity|]. destruct (core_inv _ _ (A3 g)) as (-> & -> & ->). apply HC.
  - exists (tmo (sock s fd)). rewrite HC. destruct (Z.eqb_spec (wfor (sock s fd)) 0); [contradiction|reflexivity].
  - intros D (ST & _). pose proof (dx_calm s h fd D) as CA. destruct D as (D1 & D2). specialize (A6 CA). destruct (A7 CA) as (A8 & A9). split.
    + intros g. rewrite SW. destruct (Nat.eqb_spec g fd) as [->|N]; cbn [wfor]; [contradiction|]. destruct (core_inv _ _ (A3 g)) as (-> & -> & _). intros Q1 Q2. apply A6; auto.
    + intros g k Hg. change (heap (withWait s1 fd 0)) with (heap s1) in *. rewrite TR. intros E. destruct (Nat.eq_dec g fd) as [->|N].
      * split; [apply A9, E|]. do 3 eexists. reflexivity.
      * exfalso. assert (NG : ~ In g (heap s)) by (intros Q; apply Hg, A6; auto). rewrite A8 in E by assumption. destruct (D2 g k NG E) as (_ & d' & fl' & r & ->). cbn [settles] in ST. contradiction.
Qed.
Lemma quiet_remove : forall s h fd, J s -> CH s h -> (fd < length (socks s))%nat -> wfor (sock s fd) = 0 -> let s' := removeOldTm s fd in J s' /\ CH s' h /\ (Dx s h -> Dx s' h).
Proof.
  intros s h fd HJ HC L W. cbv zeta. pose proof HJ as (HK & HR & HW). destruct (remove_ok s fd HK HR L) as (_ & _ & A3 & _). split; [apply J_remove; assumption|]. split; [eapply CH_same; eassumption|].
  intros (D1 & D2). assert (NI : ~ In fd (heap s)) by (intros Q; apply HW in Q; tauto). unfold removeOldTm. destruct (tref (sock s fd)) as [k|] eqn:E; [|split; assumption]. cbv zeta.
  destruct (D2 fd k NI E) as (LE & _). change (heap (setRef s fd None)) with (heap s). destruct (Nat.leb_spec (length (heap s)) k) as [_|Q]; [|lia]. split.
  - intros g. destruct (core_inv _ _ (core_setRef s fd None g)) as (-> & -> & _). apply D1.
  - intros g j. change (heap (setRef s fd None)) with (heap s). rewrite tref_setRef by assumption. destruct (Nat.eqb_spec g fd); [discriminate|]. apply D2.
Qed.
Definition wev (r : outcome wres) (h : list ev) : list ev := match r with Ok (WEvent fd fl d) => EDeliver fd d fl :: h | _ => h end.
Lemma wait_ok : forall rounds s tm h, J s -> CH s h -> delivers_charged h -> let x := wait rounds s tm in
  J (snd x) /\ CH (snd x) (wev (fst x) h) /\ delivers_charged (wev (fst x) h) /\ (Dx s h -> settled (wev (fst x) h) -> Dx (snd x) (wev (fst x) h)).
Proof.
  induction rounds as [|[now r] rest IH]; intros s tm h HJ HC HD; cbv zeta; cbn [wait]; [cbn [fst snd wev]; tauto|].
  rewrite expire_J by assumption. pose proof HJ as (HK & HR & HW).
  assert (HX : (forall f l, heap s = f :: l -> expired now (tmo (sock s f)) = false) \/ exists f l, heap s = f :: l /\ expired now (tmo (sock s f)) = true).
  { destruct (heap s) as [|f l]; [left; discriminate|]. destruct (expired now (tmo (sock s f))) eqn:E; [right; eauto|left; intros f' l' Q; congruence]. }
  destruct HX as [HX|(f & l & EH & EX)].
  2: { rewrite EH, EX. cbn [fst snd wev]. assert (F : In f (heap s)) by (rewrite EH; left; reflexivity).
       destruct (deliver_ok s h f 0 HJ HC (proj2 HK f F) (proj1 (HW f F))) as (A1 & A2 & A3 & _ & A4). cbn [delivers_charged]. auto. }
  assert (E : match heap s with [] => (None, s) | f :: _ => if expired now (tmo (sock s f)) then (Some (f, udata (sock s f)), withWait (removeOldTm s f) f 0) else (None, s) end = (None, s)).
  { destruct (heap s) as [|f l]; [reflexivity|]. rewrite (HX f l eq_refl). reflexivity. }
  rewrite E. cbn [fst snd]. destruct r as [et|fd e| |].
  - destruct (expired et tm); [cbn [fst snd wev]; tauto|]. destruct (heap s) as [|f l] eqn:EH; [cbn [fst snd wev]; tauto|]. cbv zeta. cbn [fst snd wev].
    assert (F : In f (heap s)) by (rewrite EH; left; reflexivity). assert (W : wfor (sock s f) <> 0) by (apply HW; left; reflexivity).
    destruct (remove_ok s f HK HR (proj2 HK f F)) as (_ & _ & (_ & S3) & _). destruct (core_inv _ _ (S3 f)) as (_ & _ & ->).
    destruct (deliver_ok s h f 0 HJ HC (proj2 HK f F) W) as (A1 & A2 & A3 & _ & A4). cbn [delivers_charged]. auto.
  - destruct (Nat.ltb_spec fd (length (socks s))) as [L|L]; [|cbn [fst snd wev]; tauto]. cbv zeta.
    destruct (remove_ok s fd HK HR L) as (_ & _ & (_ & S3) & _). destruct (core_inv _ _ (S3 fd)) as (_ & -> & ->). destruct (Z.eqb_spec (wfor (sock s fd)) 0) as [W|W]; cbn [negb].
    + destruct (quiet_remove s h fd HJ HC L W) as (B1 & B2 & B3). destruct (IH _ tm h B1 B2 HD) as (C1 & C2 & C3 & C4). auto 12.
    + cbn [fst snd wev delivers_charged]. destruct (deliver_ok s h fd (flagsOf e) HJ HC L W) as (A1 & A2 & A3 & _ & A4). auto.
  - cbn [fst snd wev]. tauto.
  - apply IH; assumption.
Qed.
Lemma ext_sock : forall s n g, sock (mkS (socks s ++ repeat inone n) (heap s)) g = sock s g.
Proof.
  intros s n g. unfold sock. cbn [socks]. destruct (lt_dec g (length (socks s))) as [L|L]; [rewrite app_nth1 by assumption; reflexivity|].
  rewrite app_nth2 by lia. rewrite (nth_overflow (socks s)) by lia. destruct (lt_dec (g - length (socks s)) n) as [L2|L2]; [apply nth_repeat|apply nth_overflow; rewrite repeat_length; lia].
Qed.
Lemma set_ok : forall s fd m tm d kok, J s -> (m = 0 -> tm = None) ->
  set_ s fd m tm d kok = (Throw, s) \/ exists s', set_ s fd m tm d kok = (if kok then Ok tt else Throw, s') /\ J s'
   /\ (forall g, core (sock s' g) = if Nat.eqb g fd then (tm, m, d) else core (sock s g))
   /\ (calm s fd -> (forall g, g <> fd -> In g (heap s) -> In g (heap s')) /\ (tm <> None -> In fd (heap s'))
        /\ (forall g k, ~ In g (heap s') -> tref (sock s' g) = Some k -> g <> fd /\ ~ In g (heap s) /\ tref (sock s g) = Some k)).
Proof.
  intros s fd m tm d kok HJ HM. unfold set_. destruct (_ && _); [left; reflexivity|right]. cbv zeta.
  match goal with |- context [removeOldTm ?x fd] => set (s0 := x) end.
  assert (P0 : J s0 /\ (forall g, sock s0 g = sock s g) /\ (fd < length (socks s0))%nat /\ heap s0 = heap s).
  { unfold s0. destruct (Nat.leb_spec (length (socks s)) fd) as [L|L]; [|auto]. split; [|split; [intros g; apply ext_sock|split; [cbn [socks]; rewrite app_length, repeat_length; lia|reflexivity]]].
    destruct HJ as ((N & F) & HR & HW). split; [|split].
    - split; [exact N|]. intros f Hf. cbn [socks]. rewrite app_length. specialize (F f Hf). lia.
    - intros i Hi _. cbn [heap] in *. rewrite ext_sock. apply HR; [exact Hi|exact I].
    - intros f Hf. cbn [heap] in Hf. rewrite ext_sock. apply HW, Hf. }
  clearbody s0. destruct P0 as (J0 & ES & L0 & EH). pose proof J0 as (K0 & R0 & W0).
  destruct (remove_ok s0 fd K0 R0 L0) as (A1 & A2 & (A3l & A3) & A4 & A5 & A6 & A7). set (s1 := removeOldTm s0 fd) in *. assert (L1 : (fd < length (socks s1))%nat) by lia.
  set (s2 := withSock s1 fd (mkI tm m d (tref (sock s1 fd)))). assert (S2 : forall g, sock s2 g = if Nat.eqb g fd then mkI tm m d (tref (sock s1 fd)) else sock s1 g) by (intros g; apply sock_with; exact L1).
  assert (L2 : length (socks s2) = length (socks s1)) by (unfold s2, withSock; cbn [socks]; apply upd_length).
  assert (CO : forall g, core (sock s2 g) = if Nat.eqb g fd then (tm, m, d) else core (sock s g)).
  { intros g. rewrite S2. destruct (Nat.eqb g fd); [reflexivity|]. rewrite A3, ES. reflexivity. }
  assert (T2 : forall g, tref (sock s2 g) = tref (sock s1 g)). { intros g. rewrite S2. destruct (Nat.eqb_spec g fd) as [->|]; reflexivity. }
  assert (CT : calm s fd -> (forall g, g <> fd -> In g (heap s) -> In g (heap s1)) /\ forall g, ~ In g (heap s1) -> g <> fd -> ~ In g (heap s) /\ tref (sock s1 g) = tref (sock s g)).
  { intros CA. assert (CA0 : calm s0 fd) by (unfold calm; rewrite EH, ES; exact CA). specialize (A6 CA0). destruct (A7 CA0) as (A8 & _). rewrite EH in *. split; [auto|].
    intros g G N. assert (NG : ~ In g (heap s)) by (intros Q; apply G, A6; auto). split; [exact NG|]. rewrite A8 by assumption. rewrite ES. reflexivity. }
  assert (FD : tmo (sock s2 fd) = tm) by (rewrite S2, Nat.eqb_refl; reflexivity).
  eexists. split; [reflexivity|]. unfold addNewTm. rewrite FD. destruct tm as [t|].
  - change (heap s2) with (heap s1). set (n := length (heap s1)). set (s3 := setRef (mkS (socks s2) (heap s1 ++ [fd])) fd (Some n)).
    assert (LL : (fd < length (socks s2))%nat) by lia. assert (LH : length (heap s3) = S n) by (change (heap s3) with (heap s1 ++ [fd]); rewrite app_length; cbn [length]; unfold n; lia).
    assert (T3 : forall g, tref (sock s3 g) = if Nat.eqb g fd then Some n else tref (sock s1 g)).
    { intros g. unfold s3. rewrite tref_setRef by exact LL. destruct (Nat.eqb g fd); [reflexivity|]. apply T2. }
    assert (N3 : NoDup (heap s1 ++ [fd])) by (apply (Permutation_NoDup (Permutation_cons_append (heap s1) fd)); constructor; [exact A5|apply A1]).
    assert (K3 : K s3). { split; [exact N3|]. intros f Hf. unfold s3. rewrite len_setRef. cbn [socks]. rewrite L2. apply in_app_or in Hf as [Hf|[<-|[]]]; [apply A1, Hf|lia]. }
    assert (R3 : R s3 all).
    { intros i Hi _. rewrite LH in Hi. change (heap s3) with (heap s1 ++ [fd]). destruct (Nat.eq_dec i n) as [->|NE].
      - unfold n at 1. rewrite nth_middle. rewrite T3, Nat.eqb_refl. reflexivity.
      - rewrite app_nth1 by (unfold n in *; lia). rewrite T3. assert (IN : In (nth i (heap s1) O) (heap s1)) by (apply nth_In; unfold n in *; lia).
        destruct (Nat.eqb_spec (nth i (heap s1) O) fd) as [Q|Q]; [rewrite Q in IN; contradiction|]. apply A2; [unfold n in *; lia|exact I]. }
    destruct (up_mv n s3 n K3 R3 ltac:(lia)) as (M1 & M2 & (_ & M3) & M4 & M5 & M6). set (s4 := siftUp n s3 n) in *.
    assert (C4 : forall g, core (sock s4 g) = if Nat.eqb g fd then (Some t, m, d) else core (sock s g)).
    { intros g. rewrite M3. unfold s3. rewrite core_setRef. change (sock (mkS (socks s2) (heap s1 ++ [fd])) g) with (sock s2 g). apply CO. }
    assert (IN4 : forall g, In g (heap s4) <-> In g (heap s1) \/ g = fd).
    { intros g. rewrite M4. change (heap s3) with (heap s1 ++ [fd]). rewrite in_app_iff. cbn [In]. intuition. }
    split; [|split; [exact C4|]].
    + split; [assumption|]. split; [assumption|]. intros f Hf. pose proof (C4 f) as Q. unfold core in Q. destruct (Nat.eqb_spec f fd) as [E|N].
      * injection Q as Q1 Q2 _. rewrite Q1, Q2. split; [intros Z; specialize (HM Z); discriminate|discriminate].
      * apply IN4 in Hf as [Hf|Hf]; [|contradiction]. apply A4 in Hf. apply W0 in Hf. rewrite ES in Hf. fold (core (sock s4 f)) in Q. destruct (core_inv _ _ Q) as (-> & -> & _). exact Hf.
    + intros CA. destruct (CT CA) as (CT1 & CT2). split; [intros g N Hg; apply IN4; left; auto|]. split; [intros _; apply IN4; right; reflexivity|].
      intros g k Hg E. assert (G1 : ~ In g (heap s1)) by (intros Q; apply Hg, IN4; auto). assert (G2 : g <> fd) by (intros Q; apply Hg, IN4; auto).
      destruct (CT2 g G1 G2) as (CT3 & CT4). split; [exact G2|]. split; [exact CT3|]. rewrite <- CT4, <- E, M6, T3; [destruct (Nat.eqb_spec g fd); [contradiction|reflexivity]|].
      change (heap s3) with (heap s1 ++ [fd]). rewrite in_app_iff. cbn [In]. intuition.
  - assert (LL : (fd < length (socks s2))%nat) by lia. set (s3 := setRef s2 fd None). assert (T3 : forall g, tref (sock s3 g) = if Nat.eqb g fd then None else tref (sock s1 g)).
    { intros g. unfold s3. rewrite tref_setRef by exact LL. destruct (Nat.eqb g fd); [reflexivity|]. apply T2. }
    assert (C3 : forall g, core (sock s3 g) = if Nat.eqb g fd then (None, m, d) else core (sock s g)) by (intros g; unfold s3; rewrite core_setRef; apply CO).
    split; [|split; [exact C3|]].
    + split; [split; [apply A1|intros f Hf; unfold s3; rewrite len_setRef, L2; apply A1, Hf]|]. split.
      * intros i Hi _. change (heap s3) with (heap s1) in *. rewrite T3. assert (IN : In (nth i (heap s1) O) (heap s1)) by (apply nth_In; exact Hi).
        destruct (Nat.eqb_spec (nth i (heap s1) O) fd) as [Q|Q]; [rewrite Q in IN; contradiction|]. apply A2; [exact Hi|exact I].
      * intros f Hf. change (heap s3) with (heap s1) in *. pose proof (C3 f) as Q. destruct (Nat.eqb_spec f fd) as [->|N]; [contradiction|]. apply A4, W0 in Hf. rewrite ES in Hf. destruct (core_inv _ _ Q) as (-> & -> & _). exact Hf.
    + intros CA. destruct (CT CA) as (CT1 & CT2). split; [exact CT1|]. split; [intros Q; contradiction|].
      intros g k Hg E. rewrite T3 in E. destruct (Nat.eqb_spec g fd) as [Q|Q]; [discriminate|]. destruct (CT2 g Hg Q) as (CT3 & CT4). split; [exact Q|]. split; [exact CT3|]. congruence.
Qed.
Lemma set_ev : forall s fd m tm d h e, J s -> CH s h -> (m = 0 -> tm = None) ->
  (e = ESet fd d tm /\ m <> 0 \/ e = EUnset fd /\ m = 0) -> let x := set_ s fd m tm d true in
  (fst x = Throw /\ snd x = s) \/ (fst x = Ok tt /\ J (snd x) /\ CH (snd x) (e :: h) /\ (Dx s h -> settled (e :: h) -> Dx (snd x) (e :: h))).
Proof.
  intros s fd m tm d h e HJ HC HM HE. cbv zeta. destruct (set_ok s fd m tm d true HJ HM) as [->|(s' & -> & J' & CO & CA)]; [left; auto|right]. cbn [fst snd].
  split; [reflexivity|]. split; [assumption|].
  assert (EQ : charged (e :: h) fd = if m =? 0 then None else Some (d, tm)).
  { destruct HE as [(-> & N)|(-> & ->)]; cbn [charged]; rewrite Nat.eqb_refl; [|reflexivity]. destruct (Z.eqb_spec m 0); [contradiction|reflexivity]. }
  assert (NE : forall g, g <> fd -> charged (e :: h) g = charged h g).
  { intros g N. destruct HE as [(-> & _)|(-> & _)]; cbn [charged]; destruct (Nat.eqb_spec fd g); congruence. }
  split.
  - intros g. destruct (Nat.eq_dec g fd) as [->|N].
    + rewrite EQ. pose proof (CO fd) as Q. rewrite Nat.eqb_refl in Q. unfold core in Q. injection Q as -> -> ->. reflexivity.
    + rewrite NE by assumption. pose proof (CO g) as Q. destruct (Nat.eqb_spec g fd); [contradiction|]. destruct (core_inv _ _ Q) as (-> & -> & ->). apply HC.
  - intros D (ST & _). destruct (CA (dx_calm s h fd D)) as (B1 & B2 & B3). destruct D as (D1 & D2). split.
    + intros g W T. pose proof (CO g) as Q. destruct (Nat.eqb_spec g fd) as [E|N].
      * rewrite E. apply B2. unfold core in Q. injection Q as Q1 _ _. rewrite <- Q1. exact T.
      * destruct (core_inv _ _ Q) as (Q1 & Q2 & _). rewrite Q1 in T. rewrite Q2 in W. apply B1; [assumption|]. apply D1; assumption.
    + intros g k Hg E. exfalso. destruct (B3 g k Hg E) as (N & G & E2). destruct (D2 g k G E2) as (_ & d' & fl & r & ->). cbn [settles] in ST. destruct HE as [(-> & _)|(-> & _)]; congruence.
Qed.
(** *** cancelling everything *)
Lemma cancel_calls : forall l i fd d, In (fd, d) (fst (cancelFrom l i)) <-> (i <= fd)%nat /\ (fd - i < length l)%nat /\ wfor (nth (fd - i) l inone) <> 0 /\ d = udata (nth (fd - i) l inone).
Proof.
  induction l as [|x l IH]; intros i fd d; cbn [cancelFrom fst length]; [split; [intros []|lia]|]. assert (G : In (fd, d) (fst (cancelFrom l (S i))) <-> (S i <= fd)%nat /\ (fd - i < S (length l))%nat /\ wfor (nth (fd - i) (x :: l) inone) <> 0 /\ d = udata (nth (fd - i) (x :: l) inone)).
  { rewrite IH. split; intros (A & B & C & D).
    - replace (fd - i)%nat with (S (fd - S i)) by lia. cbn [nth]. split; [lia|]. split; [lia|]. split; assumption.
    - replace (fd - i)%nat with (S (fd - S i)) in * by lia. cbn [nth] in *. split; [lia|]. split; [lia|]. split; assumption. }
  destruct (Z.eqb_spec (wfor x) 0) as [W|W]; cbn [negb fst In]; rewrite G; clear G.
  - split; intros (A & B & C & D); [split; [lia|auto]|]. destruct (Nat.eq_dec fd i) as [->|N]; [rewrite Nat.sub_diag in C; cbn in C; contradiction|]. split; [lia|auto].
  - split.
    + intros [E|(A & B & C & D)]; [injection E as <- <-; rewrite Nat.sub_diag; cbn [nth]; split; [lia|]; split; [lia|auto]|split; [lia|auto]].
    + intros (A & B & C & D). destruct (Nat.eq_dec fd i) as [->|N]; [left; rewrite Nat.sub_diag in D; cbn in D; congruence|right; split; [lia|auto]].
Qed.
Lemma cancel_once : forall l i, NoDup (map fst (fst (cancelFrom l i))).
Proof.
  induction l as [|x l IH]; intros i; cbn [cancelFrom fst map]; [constructor|]. destruct (Z.eqb_spec (wfor x) 0); cbn [negb fst map]; [apply IH|]. constructor; [|apply IH].
  intros H. apply in_map_iff in H as ((f & d) & E & H). cbn [fst] in E. subst f. apply cancel_calls in H. lia.
Qed.
Lemma cancel_after : forall l i g, nth g (snd (cancelFrom l i)) inone = let x := nth g l inone in if wfor x =? 0 then x else mkI (tmo x) 0 (udata x) None.
Proof.
  induction l as [|x l IH]; intros i g; cbn [cancelFrom snd]; [destruct g; reflexivity|]. destruct (Z.eqb_spec (wfor x) 0) as [W|W]; cbn [negb snd]; destruct g as [|g]; cbn [nth]; try apply IH.
  - rewrite W. reflexivity.
  - destruct (Z.eqb_spec (wfor x) 0); [contradiction|reflexivity].
Qed.
Lemma cancel_ok : forall s h, J s -> CH s h -> let x := cancelAll s in
  (forall fd d, In (fd, d) (fst x) <-> exists tm, charged h fd = Some (d, tm)) /\ NoDup (map fst (fst x))
  /\ J (snd x) /\ CH (snd x) (ECancel :: h) /\ (Dx s h -> settled (ECancel :: h) -> Dx (snd x) (ECancel :: h)).
Proof.
  intros s h (HK & HR & HW) HC. cbv zeta. unfold cancelAll. cbn [fst snd].
  assert (W0 : forall g, wfor (sock (mkS (snd (cancelFrom (socks s) 0)) []) g) = 0).
  { intros g. unfold sock. cbn [socks]. rewrite cancel_after. cbv zeta. destruct (Z.eqb_spec (wfor (nth g (socks s) inone)) 0); [assumption|reflexivity]. }
  split; [|split; [apply cancel_once|split; [|split]]].
  - intros fd d. rewrite cancel_calls, Nat.sub_0_r. fold (sock s fd). rewrite HC. split.
    + intros (_ & _ & W & ->). destruct (Z.eqb_spec (wfor (sock s fd)) 0); [contradiction|]. eauto.
    + intros (tm & E). destruct (Z.eqb_spec (wfor (sock s fd)) 0) as [Q|Q]; [discriminate|]. split; [lia|]. split; [|split; [assumption|congruence]].
      destruct (lt_dec fd (length (socks s))) as [L|L]; [exact L|]. exfalso. apply Q. rewrite sock_out by lia. reflexivity.
  - split; [split; [constructor|intros f []]|]. split; [intros i Hi; cbn in Hi; lia|intros f []].
  - intros g. rewrite W0. reflexivity.
  - intros (D1 & D2) (ST & _). split; [intros g W; rewrite W0 in W; contradiction|]. intros g k _ E. exfalso. unfold sock in E. cbn [socks] in E. rewrite cancel_after in E. cbv zeta in E. fold (sock s g) in E.
    destruct (Z.eqb_spec (wfor (sock s g)) 0) as [Q|Q]; [|discriminate]. assert (NI : ~ In g (heap s)) by (intros H; apply HW in H; tauto).
    destruct (D2 g k NI E) as (_ & d' & fl & r & ->). cbn [settles] in ST. exact ST.
Qed.
(** *** histories *)
Definition masked (o : op) : Prop := match o with OSet _ m _ _ => m <> 0 | _ => True end.
Lemma settled_app : forall a b, settled (a ++ b) -> settled b.
Proof. induction a as [|e a IH]; intros b H; [exact H|]. apply IH, H. Qed.
Lemma step_ok : forall s o h, masked o -> J s -> CH s h -> delivers_charged h -> let x := step s o in
  J (snd x) /\ CH (snd x) (fst x ++ h) /\ delivers_charged (fst x ++ h) /\ (Dx s h -> settled (fst x ++ h) -> Dx (snd x) (fst x ++ h)).
Proof.
  intros s o h HM HJ HC HD. cbv zeta. destruct o as [fd m tm d|fd|tm rounds|]; cbn [step masked] in *; cbv zeta; cbn [fst snd].
  - destruct (set_ev s fd m tm d h (ESet fd d tm) HJ HC ltac:(intros; contradiction) (or_introl (conj eq_refl HM))) as [(-> & ->)|(-> & A & B & C)]; cbn [app]; auto.
  - unfold unset. destruct (set_ev s fd 0 None 0 h (EUnset fd) HJ HC ltac:(auto) (or_intror (conj eq_refl eq_refl))) as [(-> & ->)|(-> & A & B & C)]; cbn [app]; auto.
  - destruct (wait_ok rounds s tm h HJ HC HD) as (A & B & C & D).
    assert (E : (match fst (wait rounds s tm) with Ok (WEvent fd fl d) => [EDeliver fd d fl] | _ => [] end) ++ h = wev (fst (wait rounds s tm)) h) by (destruct (fst (wait rounds s tm)) as [[| | |]| | |]; reflexivity).
    rewrite E. auto.
  - destruct (cancel_ok s h HJ HC) as (_ & _ & A & B & C). cbn [app]. auto.
Qed.
Lemma run_ok : forall l s h, Forall masked l -> J s -> CH s h -> delivers_charged h -> let x := run l h s in
  J (snd x) /\ CH (snd x) (fst x) /\ delivers_charged (fst x) /\ (Dx s h -> settled (fst x) -> Dx (snd x) (fst x)) /\ (settled (fst x) -> settled h).
Proof.
  induction l as [|o l IH]; intros s h HM HJ HC HD; cbv zeta; cbn [run]; [cbn [fst snd]; tauto|]. inversion HM as [|? ? M1 M2]; subst. cbv zeta.
  destruct (step_ok s o h M1 HJ HC HD) as (A & B & C & D). destruct (IH _ _ M2 A B C) as (A1 & A2 & A3 & A4 & A5). split; [assumption|]. split; [assumption|]. split; [assumption|].
  split; [intros Q1 Q2; apply A4; auto|]. intros Q. apply A5 in Q. eapply settled_app, Q.
Qed.
Lemma init_ok : J init /\ CH init [] /\ Dx init [].
Proof.
  assert (E : forall g, sock init g = inone) by (intros [|g]; reflexivity). split; [|split].
  - split; [split; [constructor|intros f []]|]. split; [intros i Hi; cbn in Hi; lia|intros f []].
  - intros g. rewrite E. reflexivity.
  - split; intros g; rewrite E; cbn; [contradiction|discriminate].
Qed.
