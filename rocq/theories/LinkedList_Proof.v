(** Lemmas about the linked list model. *)
From Verif Require Import Common LinkedList_Spec LinkedList_Model.

Arguments setNext : simpl never.
Arguments load : simpl never.
Arguments destroy : simpl never.
Arguments getNext : simpl never.

Section P.
  Context {A : Type}.
  Implicit Types (m : mem A) (xs ys : list A) (ps qs : list nat).

  Definition hd_or ps (nx : option nat) : option nat :=
    match ps with [] => nx | p :: _ => Some p end.

  Fixpoint chain m ps xs (nx : option nat) : Prop :=
    match ps, xs with
    | [], [] => True
    | p :: ps, x :: xs =>
        nth_error m p = Some (Some (x, hd_or ps nx)) /\ chain m ps xs nx
    | _, _ => False
    end.

  Definition last_or ps : option nat := hd_or (rev ps) None.

  (** the list header l describes the items xs held in the nodes ps *)
  Definition rep m (l : lst) ps xs : Prop :=
    NoDup ps /\ chain m ps xs None /\ l = L (hd_or ps None) (last_or ps).

  Lemma chain_length m ps xs nx : chain m ps xs nx -> length ps = length xs.
  Proof.
    revert xs; induction ps as [|p ps IH]; intros [|x xs]; simpl; intros H; try tauto.
    destruct H as [_ H]. f_equal. auto.
  Qed.

  Lemma chain_app m ps qs xs ys nx :
    length ps = length xs ->
    (chain m (ps ++ qs) (xs ++ ys) nx <-> chain m ps xs (hd_or qs nx) /\ chain m qs ys nx).
  Proof.
    revert xs; induction ps as [|p ps IH]; intros [|x xs]; simpl; intros H; try discriminate.
    - tauto.
    - rewrite IH by lia. destruct ps; simpl; tauto.
  Qed.

  Lemma chain_upd m ps xs nx a v :
    ~ In a ps -> chain m ps xs nx -> chain (upd m a v) ps xs nx.
  Proof.
    revert xs; induction ps as [|p ps IH]; intros [|x xs]; simpl; auto.
    intros Ha [H1 H2]. split; [|apply IH; tauto].
    rewrite nth_error_upd_ne; auto.
  Qed.

  Lemma chain_lt m ps xs nx p : chain m ps xs nx -> In p ps -> p < length m.
  Proof.
    revert xs; induction ps as [|q ps IH]; intros [|x xs]; simpl; try tauto.
    intros [H1 H2] [->|H]; eauto.
    apply nth_error_Some. congruence.
  Qed.

  Lemma chain_ext m ps xs nx e : chain m ps xs nx -> chain (m ++ e) ps xs nx.
  Proof.
    revert xs; induction ps as [|p ps IH]; intros [|x xs]; simpl; auto.
    intros [H1 H2]. split; auto.
    rewrite nth_error_app1; auto. apply nth_error_Some. congruence.
  Qed.

  (** pigeonhole: the nodes fit into the memory *)
  Lemma nodes_le m ps xs nx : NoDup ps -> chain m ps xs nx -> length xs <= length m.
  Proof.
    intros Hn H. rewrite <- (chain_length _ _ _ _ H).
    rewrite <- (seq_length (length m) 0). apply NoDup_incl_length; auto.
    intros p Hp. apply in_seq. pose proof (chain_lt _ _ _ _ _ H Hp). lia.
  Qed.

  Lemma split_at {B} (l : list B) i :
    i < length l -> exists a x b, l = a ++ x :: b /\ length a = i.
  Proof.
    revert i; induction l as [|y l IH]; simpl; intros i Hi; [lia|].
    destruct i as [|i].
    - exists [], y, l; auto.
    - destruct (IH i) as (a & x & b & -> & <-); [lia|]. exists (y :: a), x, b; auto.
  Qed.

  Lemma hd_or_app ps qs nx : hd_or (ps ++ qs) nx = hd_or ps (hd_or qs nx).
  Proof. destruct ps; auto. Qed.

  Lemma last_or_snoc ps p : last_or (ps ++ [p]) = Some p.
  Proof. unfold last_or. rewrite rev_app_distr. auto. Qed.

  Lemma last_or_app ps qs : qs <> [] -> last_or (ps ++ qs) = last_or qs.
  Proof.
    intros H. unfold last_or. rewrite rev_app_distr, hd_or_app.
    destruct (rev qs) eqn:E; auto. apply (f_equal (@rev nat)) in E. rewrite rev_involutive in E.
    contradiction.
  Qed.

  Lemma last_or_cons p ps : ps <> [] -> last_or (p :: ps) = last_or ps.
  Proof. intros. change (p :: ps) with ([p] ++ ps). apply last_or_app; auto. Qed.

  (** memory access *)
  Lemma load_some m p n : nth_error m p = Some (Some n) -> load m (Some p) = Ok n.
  Proof. unfold load. intros ->. auto. Qed.

  Lemma setNext_ok m p x nx v :
    nth_error m p = Some (Some (x, nx)) -> setNext m (Some p) v = Ok (upd m p (Some (x, v))).
  Proof. intros H. unfold setNext. rewrite (load_some _ _ _ H). auto. Qed.

  Lemma destroy_ok m p n :
    nth_error m p = Some (Some n) -> destroy m (Some p) = Ok (upd m p None).
  Proof. intros H. unfold destroy. rewrite (load_some _ _ _ H). auto. Qed.

  Lemma nth_new m (n : option (node A)) : nth_error (m ++ [n]) (length m) = Some n.
  Proof. rewrite nth_error_app2, Nat.sub_diag by lia. auto. Qed.

  Lemma upd_new m (n n' : option (node A)) : upd (m ++ [n]) (length m) n' = m ++ [n'].
  Proof. induction m; simpl; auto. f_equal; auto. Qed.

  Lemma upd_app1 m e a v : a < length m -> upd (m ++ e) a v = upd m a v ++ e.
  Proof.
    revert a; induction m as [|n m IH]; simpl; intros a Ha; [lia|].
    destruct a; simpl; auto. f_equal. apply IH. lia.
  Qed.

  Lemma nth_error_lt {B} (l : list B) i x : nth_error l i = Some x -> i < length l.
  Proof. intros H. apply nth_error_Some. congruence. Qed.

  Lemma fresh_notin m ps xs nx : chain m ps xs nx -> ~ In (length m) ps.
  Proof. intros H Hi. pose proof (chain_lt _ _ _ _ _ H Hi). lia. Qed.

  (** what another list sees: its nodes are untouched *)
  Definition frame m m' ps : Prop :=
    length m <= length m' /\
    forall q, q < length m -> ~ In q ps -> nth_error m' q = nth_error m q.

  Lemma frame_refl m ps : frame m m ps.
  Proof. split; auto. Qed.

  Lemma frame_trans m m' m'' ps ps' :
    (forall p, In p ps' -> In p ps \/ length m <= p) ->
    frame m m' ps -> frame m' m'' ps' -> frame m m'' ps.
  Proof.
    intros Hi [L1 H1] [L2 H2]. split; [lia|]. intros q Hq Hn.
    rewrite H2, H1; auto; [lia|]. intros Hq'. destruct (Hi _ Hq'); [tauto|lia].
  Qed.

  Lemma frame_chain m m' ps qs ys nx :
    frame m m' ps -> (forall q, In q qs -> ~ In q ps) -> chain m qs ys nx -> chain m' qs ys nx.
  Proof.
    intros [HL Hf] Hd. revert ys; induction qs as [|q qs IH]; intros [|y ys]; simpl; auto.
    intros [H1 H2]. split; [|apply IH; auto; intros; apply Hd; simpl; auto].
    rewrite Hf; auto; [|apply Hd; simpl; auto]. eapply nth_error_lt; eauto.
  Qed.

  Lemma upd_ne_list m a v q : a <> q -> nth_error (upd m a v) q = nth_error m q.
  Proof. apply nth_error_upd_ne. Qed.

  Lemma last_or_none ps : last_or ps = None -> ps = [].
  Proof.
    unfold last_or. intros H. destruct (rev ps) eqn:E; [|discriminate].
    apply (f_equal (@rev nat)) in E. rewrite rev_involutive in E. auto.
  Qed.

  (** nodes of others are not touched, and the new nodes are ours or fresh *)
  Definition grows m ps m' ps' : Prop :=
    frame m m' ps /\ forall q, In q ps' -> In q ps \/ length m <= q.

  Lemma grows_trans m ps m' ps' m'' ps'' :
    grows m ps m' ps' -> grows m' ps' m'' ps'' -> grows m ps m'' ps''.
  Proof.
    intros [F1 G1] [F2 G2]. split.
    - eapply frame_trans; [exact G1|exact F1|exact F2].
    - intros q Hq. destruct (G2 _ Hq) as [H|H]; auto. destruct F1. lia.
  Qed.

  Lemma grows_refl m ps : grows m ps m ps.
  Proof. split; [apply frame_refl|auto]. Qed.

  Ltac tgrow :=
    split;
    [ split;
      [ rewrite ?upd_length, ?app_length; simpl; lia
      | let q := fresh in let Hq := fresh in let Hi := fresh in
        intros q Hq Hi; rewrite ?in_app_iff in Hi; simpl in Hi;
        rewrite ?nth_error_upd_ne by (intros ->; tauto);
        rewrite ?nth_error_app1 by auto; auto ]
    | let q := fresh in let Hq := fresh in
      intros q Hq; rewrite ?in_app_iff in *; simpl in *; rewrite ?in_app_iff in *; simpl in *;
      intuition; subst; auto ].

  Lemma insertFirst_ok m l ps xs v :
    rep m l ps xs ->
    exists m' l' it, insertFirst m l v = Ok (m', l', it) /\
      rep m' l' (length m :: ps) (v :: xs) /\ frame m m' [] /\ it = It (Some (length m)) None.
  Proof.
    intros (Hn & Hc & ->). unfold insertFirst, create, insertFirstItem.
    rewrite (setNext_ok _ _ v None) by apply nth_new. simpl.
    rewrite upd_new. do 3 eexists. split; [reflexivity|].
    split; [|split; [|reflexivity]].
    - split; [|split].
      + constructor; auto. eapply fresh_notin; eauto.
      + simpl. split; [apply nth_new | apply chain_ext; auto].
      + f_equal. destruct ps as [|p ps].
        * reflexivity.
        * rewrite (last_or_cons (length m)) by discriminate.
          destruct (last_or (p :: ps)) eqn:E; [reflexivity|].
          apply last_or_none in E. discriminate.
    - split; [rewrite app_length; lia|]. intros. rewrite nth_error_app1 by auto. auto.
  Qed.

  Lemma NoDup_snoc ps p : NoDup ps -> ~ In p ps -> NoDup (ps ++ [p]).
  Proof.
    induction ps as [|x ps IH]; simpl; intros H Hn.
    - constructor; auto.
    - inversion H; subst. constructor; [|apply IH; auto].
      rewrite in_app_iff. simpl. intuition.
  Qed.

  Lemma snoc_case ps : ps = [] \/ exists qs q, ps = qs ++ [q].
  Proof.
    destruct ps as [|p ps] using rev_ind; [auto|]. right; eauto.
  Qed.

  Lemma rep_length m l ps xs : rep m l ps xs -> length ps = length xs.
  Proof. intros (_ & H & _). eapply chain_length; eauto. Qed.

  Lemma add_ok m l ps xs v :
    rep m l ps xs ->
    exists m' l' it, add m l v = Ok (m', l', it) /\
      rep m' l' (ps ++ [length m]) (xs ++ [v]) /\ frame m m' ps /\
      it = It (Some (length m)) None.
  Proof.
    intros H. pose proof (rep_length _ _ _ _ H) as HL. destruct H as (Hn & Hc & ->).
    unfold add, create.
    rewrite (setNext_ok _ _ v None) by apply nth_new. simpl. rewrite upd_new.
    pose proof (fresh_notin _ _ _ _ Hc) as Hf.
    destruct (snoc_case ps) as [->|(qs & q & ->)].
    - destruct xs; [|contradiction]. simpl. do 3 eexists. split; [reflexivity|].
      split; [|split; [|reflexivity]].
      + split; [repeat constructor; auto|split; [|reflexivity]]. simpl.
        split; auto. rewrite nth_new. reflexivity.
      + split; [rewrite app_length; lia|]. intros. rewrite nth_error_app1 by auto. auto.
    - rewrite last_or_snoc. simpl.
      destruct xs as [|x xs] using rev_ind; [rewrite app_length in HL; simpl in HL; lia|].
      clear IHxs. rewrite !app_length in HL; simpl in HL.
      apply chain_app in Hc; [|lia]. destruct Hc as [Hc1 Hc2]. simpl in Hc1, Hc2.
      destruct Hc2 as [Hc2 _]. simpl in Hc2.
      assert (Hq : q < length m) by (eapply nth_error_lt; eauto).
      rewrite (setNext_ok _ _ x None) by (rewrite nth_error_app1; auto). simpl.
      do 3 eexists. split; [reflexivity|]. split; [|split; [|reflexivity]].
      + split; [|split].
        * apply NoDup_snoc; auto.
        * rewrite <- !app_assoc. apply chain_app; [lia|]. simpl.
          split; [|split; [|split]]; auto.
          -- apply chain_upd; [|apply chain_ext; auto].
             intros Hi. apply NoDup_remove_2 in Hn. rewrite app_nil_r in Hn. auto.
          -- rewrite nth_error_upd_eq; auto. rewrite app_length; simpl; lia.
          -- rewrite nth_error_upd_ne by lia. rewrite nth_new. reflexivity.
        * rewrite last_or_snoc. f_equal. rewrite !hd_or_app. destruct qs; reflexivity.
      + split; [rewrite upd_length, app_length; lia|]. intros p Hp Hi.
        rewrite nth_error_upd_ne, nth_error_app1; auto.
        intros ->. apply Hi. apply in_or_app. simpl. auto.
  Qed.

  Lemma eraseFirst_ok m l ps xs :
    rep m l ps xs ->
    exists m' l', eraseFirst m l = Ok (m', l') /\ rep m' l' (tl ps) (tl xs) /\ frame m m' ps
      /\ length m' = length m.
  Proof.
    intros (Hn & Hc & ->). unfold eraseFirst, removeFirst.
    destruct ps as [|p ps], xs as [|x xs]; try contradiction; simpl in Hc.
    - simpl. do 2 eexists. split; [reflexivity|].
      split; [|split; [apply frame_refl|reflexivity]]. split; [|split]; simpl; auto.
    - destruct Hc as [H1 H2]. cbn [first last hd_or isNull].
      rewrite (load_some _ _ _ H1). cbn [obind snd fst].
      rewrite (destroy_ok _ _ _ H1). cbn [obind].
      inversion Hn as [|? ? Hp Hn']; subst.
      do 2 eexists. split; [reflexivity|]. split; [|split].
      + split; [|split]; simpl; auto.
        * apply chain_upd; auto.
        * f_equal. destruct ps as [|q ps]; simpl; auto.
          rewrite last_or_cons by discriminate. auto.
      + split; [rewrite upd_length; lia|]. intros q Hq Hi. rewrite nth_error_upd_ne; auto.
        intros ->. apply Hi. simpl. auto.
      + apply upd_length.
  Qed.

  Lemma clear_ok fuel m l ps xs :
    rep m l ps xs -> length xs < fuel ->
    exists m', clear fuel m l = Ok (m', L None None) /\ frame m m' ps /\ length m' = length m.
  Proof.
    revert m l ps xs; induction fuel as [|fuel IH]; intros m l ps xs H Hf; [lia|].
    simpl. destruct xs as [|x xs].
    - pose proof (rep_length _ _ _ _ H) as HL. destruct ps; [|discriminate].
      destruct H as (_ & _ & ->). simpl. eexists. split; [reflexivity|].
      split; [apply frame_refl|auto].
    - destruct (eraseFirst_ok _ _ _ _ H) as (m' & l' & E & H' & F & Lm).
      pose proof (rep_length _ _ _ _ H) as HL. destruct ps as [|p ps]; [discriminate|].
      assert (Ee : empty l = false) by (destruct H as (_ & _ & ->); reflexivity).
      rewrite Ee, E. simpl obind. simpl in H'.
      destruct (IH _ _ _ _ H') as (m'' & E' & F' & Lm'); [simpl in Hf; lia|].
      exists m''. split; [auto|]. split; [|lia].
      eapply frame_trans; [|exact F|exact F']. simpl. auto.
  Qed.

  Lemma rep_nil m : rep m (L None None) [] [].
  Proof. split; [constructor|split; simpl; auto]. Qed.

  (** iterators *)
  Lemma getNext_ok m p x nx pr :
    nth_error m p = Some (Some (x, nx)) ->
    getNext m (It (Some p) pr) = Ok (x, It nx (Some p)).
  Proof. intros H. unfold getNext. cbn [cur isNull]. rewrite (load_some _ _ _ H). auto. Qed.

  Lemma steps_ok m ps xs nx pr qs :
    chain m ps xs (hd_or qs nx) ->
    steps (length ps) m (It (hd_or (ps ++ qs) nx) pr) =
    Ok (It (hd_or qs nx) (match last_or ps with None => pr | p => p end)).
  Proof.
    revert xs pr; induction ps as [|p ps IH]; intros [|x xs] pr H; try contradiction.
    - reflexivity.
    - destruct H as [H1 H2]. simpl. rewrite (getNext_ok _ _ _ _ _ H1). simpl obind.
      rewrite <- hd_or_app, (IH _ _ H2). f_equal. f_equal.
      destruct ps as [|q ps]; [reflexivity|]. rewrite (last_or_cons p) by discriminate.
      destruct (last_or (q :: ps)) eqn:E; auto. apply last_or_none in E. discriminate.
  Qed.

  Lemma iterAt_in m l a b xa xb :
    rep m l (a ++ b) (xa ++ xb) -> length a = length xa ->
    iterAt m l (length a) = Ok (It (hd_or b None) (last_or a)).
  Proof.
    intros (Hn & Hc & ->) HL. unfold iterAt, getFwIter. simpl first.
    apply chain_app in Hc; auto. destruct Hc as [H1 H2].
    rewrite (steps_ok _ _ _ _ _ _ H1). destruct (last_or a); auto.
  Qed.

  Lemma steps_far m ps xs pr n :
    chain m ps xs None -> length ps < n -> steps n m (It (hd_or ps None) pr) = Throw.
  Proof.
    revert xs pr n; induction ps as [|p ps IH]; intros [|x xs] pr n H Hn; try contradiction;
      (destruct n as [|n]; [simpl in Hn; lia|]); simpl in *.
    - reflexivity.
    - destruct H as [H1 H2]. rewrite (getNext_ok _ _ _ _ _ H1). simpl obind.
      eapply IH; eauto. lia.
  Qed.

  Lemma iterAt_end m l ps xs :
    rep m l ps xs -> iterAt m l (length xs) = Ok (It None (last_or ps)).
  Proof.
    intros H. rewrite <- (rep_length _ _ _ _ H).
    pose proof (iterAt_in m l ps [] xs []) as E. rewrite !app_nil_r in E.
    apply E; auto. eapply rep_length; eauto.
  Qed.

  Lemma iterAt_far m l ps xs n : rep m l ps xs -> length xs < n -> iterAt m l n = Throw.
  Proof.
    intros H Hn. rewrite <- (rep_length _ _ _ _ H) in Hn. destruct H as (_ & Hc & ->).
    eapply steps_far; eauto.
  Qed.

  (** the list cut at position i *)
  Lemma rep_split m l ps xs i :
    rep m l ps xs -> i < length xs ->
    exists a p b xa x xb, ps = a ++ p :: b /\ xs = xa ++ x :: xb /\
      length a = i /\ length xa = i /\ length b = length xb /\
      chain m a xa (Some p) /\ nth_error m p = Some (Some (x, hd_or b None)) /\
      chain m b xb None /\ NoDup (a ++ p :: b) /\
      l = L (hd_or a (Some p)) (last_or (p :: b)) /\
      iterAt m l i = Ok (It (Some p) (last_or a)).
  Proof.
    intros H Hi. pose proof (rep_length _ _ _ _ H) as HL.
    destruct (split_at xs i Hi) as (xa & x & xb & -> & <-).
    destruct (split_at ps (length xa)) as (a & p & b & -> & Ha); [lia|].
    exists a, p, b, xa, x, xb.
    pose proof (iterAt_in _ _ _ _ _ _ H Ha) as E. rewrite Ha in E.
    destruct H as (Hn & Hc & Hl). apply chain_app in Hc; auto. destruct Hc as [H1 [H2 H3]].
    rewrite last_or_app in Hl by discriminate. rewrite hd_or_app in Hl.
    rewrite !app_length in HL; simpl in HL.
    repeat (split; [assumption || reflexivity || lia|]). assumption.
  Qed.

  Lemma firstn_len {B} (a b : list B) i : length a = i -> firstn i (a ++ b) = a.
  Proof. intros <-. rewrite firstn_app, firstn_all, Nat.sub_diag. simpl. apply app_nil_r. Qed.

  Lemma skipn_len {B} (a b : list B) i : length a = i -> skipn i (a ++ b) = b.
  Proof. intros <-. rewrite skipn_app, skipn_all, Nat.sub_diag. reflexivity. Qed.

  Lemma firstn_Slen {B} (a b : list B) x i : length a = i -> firstn (S i) (a ++ x :: b) = a ++ [x].
  Proof.
    intros H. change (x :: b) with ([x] ++ b). rewrite app_assoc. apply firstn_len.
    rewrite app_length; simpl; lia.
  Qed.

  Lemma skipn_Slen {B} (a b : list B) x i : length a = i -> skipn (S i) (a ++ x :: b) = b.
  Proof.
    intros H. change (x :: b) with ([x] ++ b). rewrite app_assoc. apply skipn_len.
    rewrite app_length; simpl; lia.
  Qed.

  Lemma same_spec p q : same p q = true <-> p = q.
  Proof.
    destruct p, q; simpl; split; intros H; try discriminate; auto.
    - f_equal. apply Nat.eqb_eq; auto.
    - injection H as ->. apply Nat.eqb_refl.
  Qed.

  Lemma last_in ps p : last_or ps = Some p -> In p ps.
  Proof.
    unfold last_or. intros H. apply in_rev. destruct (rev ps); simpl in *; [discriminate|].
    injection H as ->. auto.
  Qed.

  Lemma NoDup_mid a b (p : nat) : NoDup (a ++ p :: b) -> ~ In p a /\ ~ In p b.
  Proof. intros H. apply NoDup_remove_2 in H. rewrite in_app_iff in H. tauto. Qed.

  Lemma NoDup_ins a b (n : nat) : NoDup (a ++ b) -> ~ In n (a ++ b) -> NoDup (a ++ n :: b).
  Proof.
    induction a as [|x a IH]; simpl; intros H Hn.
    - constructor; auto.
    - inversion H; subst. constructor.
      + rewrite in_app_iff in *. simpl. intuition.
      + apply IH; auto.
  Qed.

  Lemma insertAfter_ok m l ps xs i v :
    rep m l ps xs -> i < length xs ->
    exists m' l' it ps', (let! it := iterAt m l i in insertAfter m l it v) = Ok (m', l', it) /\
      rep m' l' ps' (firstn (S i) xs ++ v :: skipn (S i) xs) /\
      it = It (Some (length m)) None /\ grows m ps m' ps'.
  Proof.
    intros H Hi. pose proof H as (Hn0 & Hc0 & _).
    destruct (rep_split _ _ _ _ _ H Hi)
      as (a & p & b & xa & x & xb & -> & -> & Ha & Hxa & Hb & C1 & C2 & C3 & Hn & -> & ->).
    cbn [obind]. unfold insertAfter, create. cbn [cur isNull first last].
    assert (Hp : p < length m) by (eapply nth_error_lt; eauto).
    rewrite (load_some _ p (x, hd_or b None)) by (rewrite nth_error_app1; auto). cbn [obind snd].
    rewrite (setNext_ok _ _ v None) by apply nth_new. cbn [obind]. rewrite upd_new.
    rewrite (setNext_ok _ _ x (hd_or b None)) by (rewrite nth_error_app1; auto). cbn [obind].
    rewrite firstn_Slen, skipn_Slen by auto.
    do 3 eexists. exists (a ++ p :: length m :: b). split; [reflexivity|].
    split; [|split; [reflexivity|tgrow]].
    destruct (NoDup_mid _ _ _ Hn) as [Np1 Np2].
    pose proof (fresh_notin _ _ _ _ Hc0) as Hf.
    split; [|split].
    - change (a ++ p :: length m :: b) with (a ++ [p] ++ length m :: b). rewrite app_assoc.
      apply NoDup_ins; rewrite <- app_assoc; auto.
    - rewrite <- app_assoc. apply chain_app; [congruence|]. simpl. split; [|split; [|split]].
      + apply chain_upd; auto. apply chain_ext; auto.
      + rewrite nth_error_upd_eq; auto. rewrite app_length; lia.
      + rewrite nth_error_upd_ne by lia. apply nth_new.
      + apply chain_upd; auto. apply chain_ext; auto.
    - rewrite hd_or_app, last_or_app by discriminate. simpl hd_or. f_equal.
      rewrite (last_or_cons p (length m :: b)) by discriminate.
      destruct (same (Some p) (last_or (p :: b))) eqn:E.
      + apply same_spec in E. destruct b as [|q b]; [reflexivity|].
        rewrite last_or_cons in E by discriminate. symmetry in E. apply last_in in E.
        contradiction.
      + destruct b as [|q b].
        * unfold last_or in E; simpl in E. rewrite Nat.eqb_refl in E. discriminate.
        * rewrite (last_or_cons p), (last_or_cons (length m)) by discriminate. reflexivity.
  Qed.

  Lemma insertBefore_ok m l ps xs i v :
    rep m l ps xs -> i < length xs ->
    exists m' l' it it' ps',
      (let! it := iterAt m l i in insertBefore m l it v) = Ok (m', l', it', it) /\
      rep m' l' ps' (firstn i xs ++ v :: skipn i xs) /\
      it = It (Some (length m)) None /\ grows m ps m' ps'.
  Proof.
    intros H Hi. pose proof H as (Hn0 & Hc0 & _).
    destruct (rep_split _ _ _ _ _ H Hi)
      as (a & p & b & xa & x & xb & -> & -> & Ha & Hxa & Hb & C1 & C2 & C3 & Hn & El & ->).
    cbn [obind]. unfold insertBefore, create. cbn [cur prev isNull].
    rewrite firstn_len, skipn_len by auto.
    destruct (snoc_case a) as [->|(a' & q & ->)].
    - simpl last_or. cbn [isNull].
      destruct xa; [|simpl in *; lia].
      destruct (insertFirst_ok m l _ _ v H) as (m' & l' & it & E & R & F & Eit).
      unfold insertFirst, create in E. rewrite E. cbn [obind].
      do 5 eexists. split; [reflexivity|]. split; [exact R|]. split; [auto|].
      split; [|intros z [<-|Hz]; auto].
      eapply frame_trans; [|apply frame_refl|exact F]. simpl; tauto.
    - rewrite last_or_snoc. cbn [isNull]. subst l.
      destruct xa as [|y xa _] using rev_ind; [rewrite app_length in *; simpl in *; lia|].
      rewrite !app_length in *; simpl in *.
      apply chain_app in C1; [|lia]. destruct C1 as [C1 [C1' _]]. simpl in C1'.
      assert (Hq : q < length m) by (eapply nth_error_lt; eauto).
      rewrite (setNext_ok _ _ v None) by apply nth_new. cbn [obind]. rewrite upd_new.
      rewrite (setNext_ok _ _ y (Some p)) by (rewrite nth_error_app1; auto). cbn [obind].
      do 4 eexists. exists ((a' ++ [q]) ++ length m :: p :: b).
      split; [reflexivity|]. split; [|split; [reflexivity|tgrow]].
      pose proof (fresh_notin _ _ _ _ Hc0) as Hf.
      pose proof Hn as Hn'. rewrite <- app_assoc in Hn'. simpl in Hn'.
      destruct (NoDup_mid _ _ _ Hn') as [Nq1 Nq2].
      split; [|split].
      + apply NoDup_ins; auto.
      + rewrite <- !app_assoc. simpl. apply chain_app; [lia|]. simpl. split; [|split; [|split; [|split]]].
        * apply chain_upd; auto. apply chain_ext; auto.
        * rewrite nth_error_upd_eq; auto. rewrite app_length; lia.
        * rewrite nth_error_upd_ne by lia. apply nth_new.
        * rewrite nth_error_upd_ne, nth_error_app1; auto; [eapply nth_error_lt; eauto|].
          intros ->. apply Nq2. simpl; auto.
        * apply chain_upd; [simpl in Nq2; tauto|]. apply chain_ext; auto.
      + rewrite last_or_app by discriminate. rewrite (last_or_cons (length m)) by discriminate.
        f_equal. rewrite !hd_or_app. destruct a'; reflexivity.
  Qed.

  Lemma erase_ok m l ps xs i :
    rep m l ps xs -> i = 0 \/ S i < length xs ->
    exists m' l' it ps', (let! it := iterAt m l i in erase m l it) = Ok (m', l', it) /\
      rep m' l' ps' (firstn i xs ++ skipn (S i) xs) /\
      iterAt m' l' i = Ok it /\ grows m ps m' ps'.
  Proof.
    intros H Hi. destruct i as [|i].
    - cbn [iterAt steps obind]. unfold erase, remove, getFwIter. cbn [prev isNull].
      destruct (eraseFirst_ok _ _ _ _ H) as (m' & l' & E & R & F & _).
      assert (G : grows m ps m' (tl ps)).
      { split; [exact F|]. intros z Hz. left. destruct ps; simpl in *; auto. }
      unfold eraseFirst in E. destruct (removeFirst m l) as [[l1 x]| | |] eqn:Er; try discriminate E.
      cbn [obind] in *. destruct x as [x|]; cbn [isNull] in *.
      + destruct (destroy m (Some x)) as [m1| | |]; try discriminate E. cbn [obind] in *.
        injection E as -> ->.
        do 4 eexists. split; [reflexivity|]. split; [destruct xs; exact R|]. split; [reflexivity|exact G].
      + injection E as <- ->.
        do 4 eexists. split; [reflexivity|]. split; [destruct xs; exact R|]. split; [|exact G].
        unfold removeFirst in Er.
        destruct (first l) as [f|] eqn:Ef; cbn [isNull] in Er.
        * destruct (load _ (Some f)); discriminate Er.
        * injection Er as ->. unfold iterAt, getFwIter; simpl. rewrite Ef. reflexivity.
    - destruct Hi as [Hi|Hi]; [discriminate|].
      destruct (rep_split _ _ _ _ (S i) H) as
        (a & p & b & xa & x & xb & -> & -> & Ha & Hxa & Hb & C1 & C2 & C3 & Hn & El & ->); [lia|].
      cbn [obind]. unfold erase, remove. cbn [cur prev isNull].
      rewrite firstn_len, skipn_Slen by auto.
      destruct (snoc_case a) as [->|(a' & q & ->)]; [discriminate Ha|].
      rewrite last_or_snoc. cbn [isNull].
      destruct xa as [|y xa _] using rev_ind; [discriminate|].
      rewrite !app_length in *; simpl in *.
      apply chain_app in C1; [|lia]. destruct C1 as [C1 [C1' _]]. simpl in C1'.
      rewrite (load_some _ _ _ C2). cbn [obind snd].
      rewrite (setNext_ok _ _ _ _ _ C1'). cbn [obind].
      pose proof Hn as Hn'. rewrite <- app_assoc in Hn'. simpl in Hn'.
      destruct (NoDup_mid _ _ _ Hn') as [Nq1 Nq2].
      assert (Hpq : q <> p) by (intros ->; apply Nq2; simpl; auto).
      assert (Hp : p < length m) by (eapply nth_error_lt; eauto).
      assert (Hq : q < length m) by (eapply nth_error_lt; eauto).
      rewrite (setNext_ok _ p x (hd_or b None)) by (rewrite nth_error_upd_ne; auto). cbn [obind isNull].
      rewrite (destroy_ok _ p (x, None)) by (rewrite nth_error_upd_eq; auto; rewrite upd_length; auto).
      cbn [obind].
      rewrite (load_some _ q (y, hd_or b None)); cycle 1.
      { rewrite !nth_error_upd_ne by auto. rewrite nth_error_upd_eq; auto. }
      cbn [obind snd].
      do 3 eexists. exists ((a' ++ [q]) ++ b). split; [reflexivity|].
      set (m' := upd _ p None).
      assert (R : rep m' l ((a' ++ [q]) ++ b) ((xa ++ [y]) ++ xb)).
      { destruct (NoDup_mid _ _ _ Hn) as [Np1 Np2].
        split; [|split].
        - apply NoDup_remove_1 in Hn. auto.
        - rewrite <- !app_assoc. simpl. apply chain_app; [lia|]. simpl.
          unfold m'. rewrite in_app_iff in Np1. simpl in Nq2.
          split; [|split].
          + apply chain_upd; [tauto|]. apply chain_upd; [tauto|]. apply chain_upd; [tauto|]. auto.
          + rewrite !nth_error_upd_ne by auto. rewrite nth_error_upd_eq; auto.
          + apply chain_upd; [tauto|]. apply chain_upd; [tauto|]. apply chain_upd; [tauto|]. auto.
        - subst l. destruct b as [|c b]; [simpl in *; lia|].
          rewrite last_or_app by discriminate. rewrite (last_or_cons p) by discriminate.
          f_equal. rewrite !hd_or_app. destruct a'; reflexivity. }
      split; [exact R|]. split; [|unfold m'; tgrow].
      pose proof (iterAt_in _ _ _ _ _ _ R) as E. rewrite !app_length in E. simpl in E.
      replace (S i) with (length a' + 1) by lia. rewrite E by lia. rewrite last_or_snoc. reflexivity.
  Qed.

  (** reading *)
  Lemma getFirst_ok m l ps xs :
    rep m l ps xs -> getFirst m l = match hd_error xs with Some x => Ok x | None => Throw end.
  Proof.
    intros (_ & Hc & ->). destruct ps as [|p ps], xs as [|x xs]; try contradiction; auto.
    destruct Hc as [H1 _]. unfold getFirst. cbn [first hd_or isNull].
    rewrite (load_some _ _ _ H1). auto.
  Qed.

  Lemma getLast_ok m l ps xs :
    rep m l ps xs -> getLast m l = match hd_error (rev xs) with Some x => Ok x | None => Throw end.
  Proof.
    intros H. pose proof (rep_length _ _ _ _ H) as HL. destruct H as (_ & Hc & ->).
    unfold getLast. cbn [last].
    destruct (snoc_case ps) as [->|(qs & q & ->)].
    - destruct xs; [|contradiction]. reflexivity.
    - destruct xs as [|x xs _] using rev_ind; [rewrite app_length in HL; simpl in HL; lia|].
      rewrite !app_length in HL; simpl in HL. apply chain_app in Hc; [|lia].
      destruct Hc as [_ [H1 _]]. rewrite last_or_snoc. cbn [isNull].
      rewrite (load_some _ _ _ H1), rev_app_distr. reflexivity.
  Qed.

  Lemma getLastConst_ok m l ps xs :
    rep m l ps xs -> getLastConst m l = match hd_error xs with Some x => Ok x | None => Throw end.
  Proof.
    intros H. rewrite <- (getFirst_ok _ _ _ _ H). destruct H as (_ & Hc & ->).
    unfold getLastConst, getFirst. cbn [first last].
    destruct ps as [|p ps]; [reflexivity|].
    destruct (last_or (p :: ps)) eqn:E; [reflexivity|]. apply last_or_none in E. discriminate.
  Qed.

  Lemma peek_ok m l ps xs i :
    rep m l ps xs ->
    (let! it := iterAt m l i in peek m it) = match nth_error xs i with Some x => Ok x | None => Throw end.
  Proof.
    intros H. destruct (lt_dec i (length xs)) as [Hi|Hi].
    - destruct (rep_split _ _ _ _ i H) as
        (a & p & b & xa & x & xb & -> & -> & Ha & Hxa & Hb & C1 & C2 & C3 & Hn & El & ->); [lia|].
      cbn [obind]. unfold peek. cbn [cur isNull]. rewrite (load_some _ _ _ C2).
      rewrite nth_error_app2 by lia. rewrite Hxa, Nat.sub_diag. reflexivity.
    - rewrite (proj2 (nth_error_None xs i)) by lia.
      destruct (Nat.eq_dec i (length xs)) as [->|].
      + rewrite (iterAt_end _ _ _ _ H). reflexivity.
      + rewrite (iterAt_far _ _ _ _ _ H); auto. lia.
  Qed.

  Lemma size_loop_ok fuel m ps xs pr c :
    chain m ps xs None -> length xs < fuel ->
    size_loop fuel m (It (hd_or ps None) pr) c = Ok (c + length xs).
  Proof.
    revert ps xs pr c; induction fuel as [|fuel IH]; intros [|p ps] [|x xs] pr c H Hf;
      try contradiction; try (simpl in Hf; lia).
    - simpl. f_equal. lia.
    - destruct H as [H1 H2]. simpl size_loop. rewrite (getNext_ok _ _ _ _ _ H1). cbn [obind].
      rewrite IH with (xs := xs) by (auto; simpl in Hf; lia). f_equal. simpl. lia.
  Qed.

  Lemma read_loop_ok fuel m ps xs pr :
    chain m ps xs None -> length xs < fuel ->
    read_loop fuel m (It (hd_or ps None) pr) = Ok xs.
  Proof.
    revert ps xs pr; induction fuel as [|fuel IH]; intros [|p ps] [|x xs] pr H Hf;
      try contradiction; try (simpl in Hf; lia).
    - reflexivity.
    - destruct H as [H1 H2]. simpl read_loop. rewrite (getNext_ok _ _ _ _ _ H1). cbn [obind].
      rewrite IH with (xs := xs) by (auto; simpl in Hf; lia). reflexivity.
  Qed.

  Lemma rep_fits m l ps xs : rep m l ps xs -> length xs <= length m.
  Proof. intros (Hn & Hc & _). eapply nodes_le; eauto. Qed.

  Lemma size_ok m l ps xs : rep m l ps xs -> size m l = Ok (length xs).
  Proof.
    intros H. pose proof (rep_fits _ _ _ _ H). destruct H as (_ & Hc & ->).
    unfold size, getFwIter. cbn [first].
    rewrite size_loop_ok with (xs := xs); auto. lia.
  Qed.

  Lemma items_ok m l ps xs : rep m l ps xs -> items m l = Ok xs.
  Proof.
    intros H. pose proof (rep_fits _ _ _ _ H). destruct H as (_ & Hc & ->).
    unfold items, getFwIter. cbn [first].
    rewrite read_loop_ok with (xs := xs); auto. lia.
  Qed.

  (** copying and assignment *)
  Lemma copy_loop_ok fuel m l ps xs qs ys pr :
    rep m l ps xs -> chain m qs ys None -> (forall q, In q qs -> ~ In q ps) ->
    length ys < fuel ->
    exists m' l' ps', copy_loop fuel m l (It (hd_or qs None) pr) = Ok (m', l') /\
      rep m' l' ps' (rev ys ++ xs) /\ frame m m' [].
  Proof.
    revert m l ps xs qs ys pr; induction fuel as [|fuel IH];
      intros m l ps xs [|q qs] [|y ys] pr H Hc Hd Hf; try contradiction; try (simpl in Hf; lia).
    - do 3 eexists. split; [reflexivity|]. split; [exact H|apply frame_refl].
    - pose proof Hc as Hc'. destruct Hc as [H1 H2]. simpl copy_loop.
      rewrite (getNext_ok _ _ _ _ _ H1). cbn [obind].
      destruct (insertFirst_ok _ _ _ _ y H) as (m' & l' & it & E & R & F & _).
      rewrite E. cbn [obind].
      destruct (IH _ _ _ _ qs ys (Some q) R) as (m'' & l'' & ps' & E' & R' & F').
      + eapply frame_chain; [exact F| |exact H2]. simpl. auto.
      + intros z Hz [<-|Hi].
        * pose proof (chain_lt _ _ _ _ _ H2 Hz). lia.
        * revert Hi. apply Hd. simpl; auto.
      + simpl in Hf. lia.
      + do 3 eexists. split; [exact E'|]. split.
        * simpl. rewrite <- app_assoc. exact R'.
        * eapply frame_trans; [|exact F|exact F']. simpl. tauto.
  Qed.

  Lemma assign_loop_ok fuel m l ps xs qs ys pr :
    rep m l ps xs -> chain m qs ys None -> (forall q, In q qs -> ~ In q ps) ->
    length ys < fuel ->
    exists m' l' ps', assign_loop fuel m l (It (hd_or qs None) pr) = Ok (m', l') /\
      rep m' l' ps' (xs ++ ys) /\ frame m m' ps.
  Proof.
    revert m l ps xs qs ys pr; induction fuel as [|fuel IH];
      intros m l ps xs [|q qs] [|y ys] pr H Hc Hd Hf; try contradiction; try (simpl in Hf; lia).
    - do 3 eexists. split; [reflexivity|].
      rewrite app_nil_r. split; [exact H|apply frame_refl].
    - pose proof Hc as Hc'. destruct Hc as [H1 H2]. simpl assign_loop.
      rewrite (getNext_ok _ _ _ _ _ H1). cbn [obind].
      destruct (add_ok _ _ _ _ y H) as (m' & l' & it & E & R & F & _).
      rewrite E. cbn [obind].
      destruct (IH _ _ _ _ qs ys (Some q) R) as (m'' & l'' & ps' & E' & R' & F').
      + eapply frame_chain; [exact F| |exact H2]. intros z Hz. apply Hd. simpl; auto.
      + intros z Hz Hi. apply in_app_iff in Hi. destruct Hi as [Hi|[<-|[]]].
        * revert Hi. apply Hd. simpl; auto.
        * pose proof (chain_lt _ _ _ _ _ H2 Hz). lia.
      + simpl in Hf. lia.
      + do 3 eexists. split; [exact E'|]. split.
        * rewrite <- app_assoc in R'. exact R'.
        * eapply frame_trans; [|exact F|exact F']. intros p Hp. apply in_app_iff in Hp.
          destruct Hp as [Hp|[<-|[]]]; auto.
  Qed.

  Lemma copy_ok m l ps xs :
    rep m l ps xs ->
    exists m' c ps', copy m l = Ok (m', c) /\ rep m' c ps' (rev xs) /\ rep m' l ps xs.
  Proof.
    intros H. pose proof (rep_fits _ _ _ _ H) as Hf. pose proof H as (Hn & Hc & El).
    destruct (copy_loop_ok (S (length m)) m empty_list [] [] ps xs None (rep_nil m) Hc)
      as (m' & c & ps' & E & R & F); auto; [lia|].
    exists m', c, ps'. split; [|split].
    - unfold copy, getFwIter. subst l. exact E.
    - rewrite app_nil_r in R. exact R.
    - split; [auto|]. split; [|auto]. eapply frame_chain; [exact F| |exact Hc]. simpl. auto.
  Qed.

  Lemma assign_ok m l ps xs o qs ys :
    rep m l ps xs -> rep m o qs ys -> (forall q, In q qs -> ~ In q ps) ->
    exists m' l' ps', assign m l o = Ok (m', l') /\ rep m' l' ps' ys /\ rep m' o qs ys.
  Proof.
    intros H Ho Hd. pose proof (rep_fits _ _ _ _ H) as Hf.
    pose proof (rep_fits _ _ _ _ Ho) as Hfo.
    unfold assign. destruct (clear_ok (S (length m)) _ _ _ _ H) as (m1 & E1 & F1 & Lm); [lia|].
    rewrite E1. cbn [obind]. destruct Ho as (Hn & Hc & ->).
    assert (Hc1 : chain m1 qs ys None) by (eapply frame_chain; eauto).
    destruct (assign_loop_ok (S (length m1)) m1 (L None None) [] [] qs ys None (rep_nil m1) Hc1)
      as (m' & c & ps' & E & R & F); auto; [lia|].
    exists m', c, ps'. split; [exact E|]. split; [exact R|].
    split; [auto|]. split; [|auto]. eapply frame_chain; [exact F| |exact Hc1]. simpl. auto.
  Qed.

  Lemma self_assign_ok m l ps xs :
    rep m l ps xs ->
    exists m', clear (S (length m)) m l = Ok (m', L None None) /\ frame m m' ps.
  Proof.
    intros H. destruct (clear_ok (S (length m)) _ _ _ _ H) as (m1 & E1 & F & _).
    - pose proof (rep_fits _ _ _ _ H). lia.
    - eauto.
  Qed.

  (** one call refines one step of the specification *)
  Ltac fin := do 3 eexists; split; [reflexivity|split; [eassumption|auto using grows_refl]].

  Lemma step_ok m l ps xs o :
    rep m l ps xs -> keeps_last_step xs o ->
    exists m' l' ps', step (m, l) o = Ok (fst (lspec_step xs o), (m', l')) /\
      rep m' l' ps' (snd (lspec_step xs o)) /\ grows m ps m' ps'.
  Proof.
    intros H K. destruct o; simpl step; cbn [lspec_step].
    - destruct (insertFirst_ok _ _ _ _ x H) as (m' & l' & it & -> & R & F & _).
      do 3 eexists. split; [reflexivity|]. split; [exact R|].
      split; [|intros z [<-|Hz]; auto].
      eapply frame_trans; [|apply frame_refl|exact F]. simpl; tauto.
    - destruct (add_ok _ _ _ _ x H) as (m' & l' & it & -> & R & F & _).
      do 3 eexists. split; [reflexivity|]. split; [exact R|].
      split; [exact F|]. intros z Hz. apply in_app_iff in Hz.
      destruct Hz as [Hz|[<-|[]]]; auto.
    - destruct (Nat.ltb_spec i (length xs)).
      + destruct (insertAfter_ok _ _ _ _ i x H) as (m' & l' & it & ps' & -> & R & _ & G); [auto|].
        fin.
      + destruct (Nat.eq_dec i (length xs)) as [->|].
        * rewrite (iterAt_end _ _ _ _ H). fin.
        * rewrite (iterAt_far _ _ _ _ _ H) by lia. fin.
    - destruct (Nat.ltb_spec i (length xs)).
      + destruct (insertBefore_ok _ _ _ _ i x H)
          as (m' & l' & it & it' & ps' & -> & R & _ & G); [auto|].
        fin.
      + destruct (Nat.eq_dec i (length xs)) as [->|].
        * rewrite (iterAt_end _ _ _ _ H). fin.
        * rewrite (iterAt_far _ _ _ _ _ H) by lia. fin.
    - destruct (eraseFirst_ok _ _ _ _ H) as (m' & l' & -> & R & F & _).
      do 3 eexists. split; [reflexivity|]. split; [exact R|].
      split; [exact F|]. intros z Hz. left. destruct ps; simpl in *; auto.
    - destruct (erase_ok _ _ _ _ _ H K) as (m' & l' & it & ps' & -> & R & _ & G). fin.
    - destruct (self_assign_ok _ _ _ _ H) as (m' & E & F). simpl in E. rewrite E.
      do 3 eexists. split; [reflexivity|]. split; [apply rep_nil|].
      split; [exact F|simpl; tauto].
    - rewrite (getFirst_ok _ _ _ _ H). destruct (hd_error xs); simpl; fin.
    - rewrite (getLast_ok _ _ _ _ H). destruct (hd_error (rev xs)); simpl; fin.
    - rewrite (peek_ok _ _ _ _ _ H). destruct (nth_error xs i); simpl; fin.
    - rewrite (size_ok _ _ _ _ H). simpl. fin.
    - exists m, l, ps. split; [|split; [exact H|apply grows_refl]]. destruct H as (_ & Hc & ->).
      destruct ps, xs; try contradiction; reflexivity.
    - rewrite (items_ok _ _ _ _ H). simpl. fin.
  Qed.

  Lemma run_ok_grows os m l ps xs :
    rep m l ps xs -> keeps_last xs os ->
    exists m' l' ps', run (m, l) os = Ok (fst (lspec_run xs os), (m', l')) /\
      rep m' l' ps' (snd (lspec_run xs os)) /\ grows m ps m' ps'.
  Proof.
    revert m l ps xs; induction os as [|o os IH]; intros m l ps xs H K.
    - simpl. exists m, l, ps. auto using grows_refl.
    - destruct K as [K1 K2]. destruct (step_ok _ _ _ _ _ H K1) as (m' & l' & ps' & E & R & G).
      cbn [run]. rewrite E. cbn [obind lspec_run].
      destruct (IH _ _ _ _ R K2) as (m'' & l'' & ps'' & E' & R' & G'). rewrite E'. cbn [obind].
      destruct (lspec_step xs o) as [a xs'] eqn:Es. simpl in *.
      destruct (lspec_run xs' os) as [r xs''] eqn:Er. simpl in *.
      exists m'', l'', ps''. split; [auto|]. split; [auto|]. eapply grows_trans; eauto.
  Qed.

  Lemma run_ok os m l ps xs :
    rep m l ps xs -> keeps_last xs os ->
    exists m' l' ps', run (m, l) os = Ok (fst (lspec_run xs os), (m', l')) /\
      rep m' l' ps' (snd (lspec_run xs os)).
  Proof.
    intros H K. destruct (run_ok_grows _ _ _ _ _ H K) as (m' & l' & ps' & E & R & _). eauto.
  Qed.

  Lemma erase_prev0 m l ps xs c :
    rep m l ps xs ->
    exists m' l' it ps', erase m l (It c None) = Ok (m', l', it) /\ rep m' l' ps' (tl xs).
  Proof.
    intros H. destruct (erase_ok _ _ _ _ 0 H (or_introl eq_refl)) as (m' & l' & it & ps' & E & R & _).
    unfold iterAt, getFwIter in E. cbn [steps obind] in E.
    exists m', l', it, ps'. split; [exact E|].
    destruct xs; exact R.
  Qed.

  Lemma run_adds xs m l ps ys :
    rep m l ps ys ->
    exists m' l' ps' r, run (m, l) (map LAdd xs) = Ok (r, (m', l')) /\ rep m' l' ps' (ys ++ xs).
  Proof.
    revert m l ps ys; induction xs as [|x xs IH]; intros m l ps ys H.
    - do 4 eexists. split; [reflexivity|]. rewrite app_nil_r. exact H.
    - cbn [map run step]. destruct (add_ok _ _ _ _ x H) as (m' & l' & it & -> & R & _).
      cbn [answered obind]. destruct (IH _ _ _ _ R) as (m'' & l'' & ps'' & r & -> & R').
      cbn [obind]. do 4 eexists. split; [reflexivity|]. rewrite <- app_assoc in R'. exact R'.
  Qed.

  Lemma erase_last_undef xs x y v :
    exists m l m' l' it r,
      run ([], empty_list) (map LAdd (xs ++ [x; y])) = Ok (r, (m, l)) /\
      (let! k := iterAt m l (S (length xs)) in erase m l k) = Ok (m', l', it) /\
      add m' l' v = Undef /\ getLast m' l' = Undef.
  Proof.
    destruct (run_adds (xs ++ [x; y]) [] empty_list [] [] (rep_nil [])) as (m & l & ps & r & E & H).
    simpl app in H.
    destruct (rep_split _ _ _ _ (S (length xs)) H) as
      (a & p & b & xa & z & xb & -> & Exs & Ha & Hxa & Hb & C1 & C2 & C3 & Hn & El & Ei).
    { rewrite app_length; simpl; lia. }
    assert (Hl : length xb = 0).
    { apply (f_equal (@length A)) in Exs. rewrite !app_length in Exs. simpl in Exs. lia. }
    destruct xb; [|discriminate]. destruct b; [|discriminate].
    destruct (snoc_case a) as [->|(a' & q & ->)]; [discriminate Ha|].
    destruct xa as [|w xa _] using rev_ind; [discriminate|].
    rewrite !app_length in *; simpl in *.
    apply chain_app in C1; [|lia]. destruct C1 as [C1 [C1' _]]. simpl in C1'.
    rewrite last_or_snoc in Ei.
    pose proof Hn as Hn'. rewrite <- app_assoc in Hn'. simpl in Hn'.
    destruct (NoDup_mid _ _ _ Hn') as [Nq1 Nq2].
    assert (Hpq : q <> p) by (intros ->; apply Nq2; simpl; auto).
    assert (Hp : p < length m) by (eapply nth_error_lt; eauto).
    assert (Hq : q < length m) by (eapply nth_error_lt; eauto).
    assert (Er : erase m l (It (Some p) (Some q)) =
      Ok (upd (upd (upd m q (Some (w, None))) p (Some (z, None))) p None, l, It None (Some q))).
    { unfold erase, remove. cbn [cur prev isNull].
      rewrite (load_some _ _ _ C2). cbn [obind snd].
      rewrite (setNext_ok _ _ _ _ _ C1'). cbn [obind].
      rewrite (setNext_ok _ p z None) by (rewrite nth_error_upd_ne; auto). cbn [obind isNull].
      rewrite (destroy_ok _ p (z, None)) by (rewrite nth_error_upd_eq; auto; rewrite upd_length; auto).
      cbn [obind].
      rewrite (load_some _ q (w, None)); [reflexivity|].
      rewrite !nth_error_upd_ne by auto. rewrite nth_error_upd_eq; auto. }
    set (m' := upd _ p None) in Er.
    assert (Hdead : nth_error m' p = Some None).
    { unfold m'. rewrite nth_error_upd_eq; auto. rewrite !upd_length; auto. }
    do 6 eexists. split; [exact E|]. split; [rewrite Ei; cbn [obind]; exact Er|].
    assert (Hlast : last l = Some p) by (subst l; reflexivity).
    split.
    - unfold add, create. rewrite (setNext_ok _ _ v None) by apply nth_new. cbn [obind].
      rewrite Hlast. cbn [isNull]. unfold setNext, load.
      rewrite upd_new. rewrite nth_error_app1 by (eapply nth_error_lt; eauto). rewrite Hdead. reflexivity.
    - unfold getLast. rewrite Hlast. cbn [isNull]. unfold load. rewrite Hdead. reflexivity.
  Qed.
End P.
