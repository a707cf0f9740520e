(** Lemmas about the set of watched descriptors *)
From Verif Require Import Common FdSelect_Spec FdSelect_Model.
From Coq Require Import ZifyBool.
Open Scope Z_scope.

Record wf (s : st) : Prop := mkW {
  w_len : length (fdExtra s) = length (fdList s);
  w_find : forall fd p, find (fdIndex s) fd = Some p -> (p < length (fdList s))%nat /\ pf (nth p (fdList s) pnone) = fd;
  w_idx : forall i, (i < length (fdList s))%nat -> find (fdIndex s) (pf (nth i (fdList s) pnone)) = Some i;
  w_cur : 0 <= curPos s;
  w_rev : forall i, (i < length (fdList s))%nat -> revents (nth i (fdList s) pnone) <> 0 -> curPos s <= Z.of_nat i }.
Definition view (s : st) (fd : Z) : option (pfd * extra) :=
  match find (fdIndex s) fd with Some p => Some (nth p (fdList s) pnone, nth p (fdExtra s) xnone) | None => None end.

Lemma find_erase : forall m fd g, find (erase m fd) g = if g =? fd then None else find m g.
Proof.
  induction m as [|[k v] m IH]; intros fd g; cbn [erase filter find fst]; [destruct (g =? fd); reflexivity|].
  fold (erase m fd). destruct (Z.eqb_spec k fd) as [Q|Q]; cbn [negb].
  - rewrite IH. destruct (Z.eqb_spec g fd); [reflexivity|]. destruct (Z.eqb_spec k g); [lia|reflexivity].
  - cbn [find]. rewrite IH. destruct (Z.eqb_spec k g), (Z.eqb_spec g fd); try reflexivity; lia.
Qed.
Lemma find_map : forall m k pos g, find (map (fun p => if fst p =? k then (fst p, pos) else p) m) g
  = if g =? k then match find m g with Some _ => Some pos | None => None end else find m g.
Proof.
  induction m as [|[a v] m IH]; intros k pos g; cbn [map find fst]. { destruct (g =? k); reflexivity. }
  destruct (Z.eqb_spec a k) as [Q|Q]; cbn [find]; rewrite IH; destruct (Z.eqb_spec a g), (Z.eqb_spec g k); try reflexivity; lia.
Qed.
Lemma nth_firstn : forall A n (l : list A) i d, (i < n)%nat -> nth i (firstn n l) d = nth i l d.
Proof. induction n as [|n IH]; intros l i d H; [lia|]. destruct l; [destruct i; reflexivity|]. destruct i; cbn; [reflexivity|]. apply IH. lia. Qed.

Lemma wf_init : wf init.
Proof. split; cbn; try discriminate; try lia. Qed.
(** *** set *)
Lemma set_wf : forall s i, wf s -> wf (set_ s i).
Proof.
  intros s i [L F I C R]. unfold set_. destruct (find (fdIndex s) (ifd i)) as [p|] eqn:E; split; cbn [fdList fdExtra fdIndex curPos withT]; auto.
  - rewrite !upd_length. exact L.
  - intros fd q H. rewrite upd_length. destruct (F _ _ H) as (A & B). split; [assumption|]. destruct (Nat.eq_dec q p) as [->|Q].
    + rewrite nth_upd_eq by assumption. cbn. destruct (F _ _ E) as (_ & B'). congruence.
    + rewrite nth_upd_ne by auto. assumption.
  - intros q H. rewrite upd_length in H. destruct (Nat.eq_dec q p) as [->|Q]; [rewrite nth_upd_eq by assumption; exact E|rewrite nth_upd_ne by auto; auto].
  - intros q H N. rewrite upd_length in H. destruct (Nat.eq_dec q p) as [->|Q]; [rewrite nth_upd_eq in N by assumption; cbn in N; contradiction|rewrite nth_upd_ne in N by auto; auto].
  - rewrite !app_length, L. reflexivity.
  - intros fd p H. cbn [find] in H. rewrite app_length. cbn [length]. destruct (Z.eqb_spec (ifd i) fd) as [Q|Q].
    + injection H as <-. split; [lia|]. rewrite nth_middle. exact Q.
    + destruct (F _ _ H) as (A & B). split; [lia|]. rewrite app_nth1 by assumption. exact B.
  - intros q H. rewrite app_length in H. cbn [length] in H. cbn [find]. destruct (Nat.eq_dec q (length (fdList s))) as [->|Q].
    + rewrite nth_middle. cbn [pf]. rewrite Z.eqb_refl. reflexivity.
    + rewrite app_nth1 by lia. specialize (I q ltac:(lia)). destruct (Z.eqb_spec (ifd i) (pf (nth q (fdList s) pnone))) as [Q1|Q1]; [rewrite <- Q1 in I; congruence|exact I].
  - intros q H N. rewrite app_length in H. cbn [length] in H. destruct (Nat.eq_dec q (length (fdList s))) as [->|Q]; [rewrite nth_middle in N; cbn in N; contradiction|].
    rewrite app_nth1 in N by lia. apply R; [lia|assumption].
Qed.
Lemma set_view : forall s i g, wf s -> view (set_ s i) g = if g =? ifd i then Some (mkP (ifd i) (waitMaskToEvents (imask i)) 0, mkX (idata i) (itm i)) else view s g.
Proof.
  intros s i g [L F I C R]. unfold set_, view. destruct (find (fdIndex s) (ifd i)) as [p|] eqn:E; cbn [fdList fdExtra fdIndex withT find].
  - destruct (F _ _ E) as (A & B). destruct (Z.eqb_spec g (ifd i)) as [->|Q].
    + rewrite E, !nth_upd_eq by lia. reflexivity.
    + destruct (find (fdIndex s) g) as [q|] eqn:G; [|reflexivity]. destruct (F _ _ G) as (A' & B'). rewrite !nth_upd_ne; [reflexivity| |]; intros ->; congruence.
  - rewrite (Z.eqb_sym (ifd i)). destruct (Z.eqb_spec g (ifd i)) as [->|Q].
    + rewrite nth_middle. rewrite <- L, nth_middle. reflexivity.
    + destruct (find (fdIndex s) g) as [q|] eqn:G; [|reflexivity]. destruct (F _ _ G) as (A' & B'). rewrite !app_nth1 by lia. reflexivity.
Qed.
(** *** unset *)
Lemma cur_wf : forall s c, wf s -> 0 <= c <= curPos s -> wf (withCur s c).
Proof. intros s c [L F I C R] H. split; cbn; auto; [lia|]. intros i Hi N. specialize (R i Hi N). lia. Qed.
Lemma remove_both : forall s fd pos, wf s -> find (fdIndex s) fd = Some pos ->
  wf (removeFd s pos) /\ (forall g, view (removeFd s pos) g = if g =? fd then None else view s g) /\ S (length (fdList (removeFd s pos))) = length (fdList s)
  /\ curPos (removeFd s pos) = Z.min (Z.of_nat pos) (curPos s) /\ (forall p, In p (fdList (removeFd s pos)) -> In p (fdList s))
  /\ wake (removeFd s pos) = wake s /\ pending (removeFd s pos) = pending s.
Proof.
  intros s fd pos W E. destruct W as [L F I C R]. destruct (F _ _ E) as (PL & PF).
  set (last := (length (fdList s) - 1)%nat). assert (LL : S last = length (fdList s)) by (unfold last; lia).
  (* the tables before the position is corrected *)
  assert (T : exists l x idx, removeFd s pos = (let s1 := withT s l x idx in if Z.of_nat pos <? curPos s1 then withCur s1 (Z.of_nat pos) else s1)
     /\ length l = last /\ length x = last
     /\ (forall i, (i < last)%nat -> nth i l pnone = nth (if Nat.eqb i pos then last else i) (fdList s) pnone)
     /\ (forall i, (i < last)%nat -> nth i x xnone = nth (if Nat.eqb i pos then last else i) (fdExtra s) xnone)
     /\ (forall g, find idx g = if g =? fd then None else match find (fdIndex s) g with Some q => Some (if Nat.eqb q last then pos else q) | None => None end)
     /\ (forall p, In p l -> In p (fdList s))).
  { unfold removeFd. fold last. rewrite PF. destruct (Nat.eqb_spec pos last) as [Q|Q].
    - eexists _, _, _. split; [reflexivity|]. rewrite !firstn_length. split; [lia|]. split; [lia|].
      split; [intros i Hi; rewrite nth_firstn by assumption; destruct (Nat.eqb_spec i pos); [lia|reflexivity]|].
      split; [intros i Hi; rewrite nth_firstn by assumption; destruct (Nat.eqb_spec i pos); [lia|reflexivity]|].
      split.
      + intros g. rewrite find_erase. destruct (Z.eqb_spec g fd) as [G|G]; [reflexivity|]. destruct (find (fdIndex s) g) as [q|] eqn:EG; [|reflexivity].
        destruct (F _ _ EG) as (A & B). destruct (Nat.eqb_spec q last) as [K|K]; [|reflexivity]. exfalso. apply G. rewrite <- B, <- PF. congruence.
      + intros p Hp. revert Hp. generalize (fdList s). generalize last. clear. intros n. induction n as [|n IH]; intros [|y l]; cbn; intuition.
    - eexists _, _, _. split; [reflexivity|]. rewrite !firstn_length, !upd_length. split; [lia|]. split; [lia|].
      split. { intros i Hi. rewrite nth_firstn by assumption. destruct (Nat.eqb_spec i pos) as [->|K]; [apply nth_upd_eq; lia|apply nth_upd_ne; auto]. }
      split. { intros i Hi. rewrite nth_firstn by assumption. destruct (Nat.eqb_spec i pos) as [->|K]; [apply nth_upd_eq; lia|apply nth_upd_ne; auto]. }
      split.
      + intros g. rewrite find_map, find_erase. rewrite nth_upd_eq by assumption.
        assert (IL : find (fdIndex s) (pf (nth last (fdList s) pnone)) = Some last) by (apply I; lia).
        destruct (Z.eqb_spec g fd) as [G|G]. { destruct (g =? _); reflexivity. }
        destruct (Z.eqb_spec g (pf (nth last (fdList s) pnone))) as [K|K].
        * rewrite K, IL, Nat.eqb_refl. reflexivity.
        * destruct (find (fdIndex s) g) as [q|] eqn:EG; [|reflexivity]. destruct (F _ _ EG) as (A & B).
          destruct (Nat.eqb_spec q last) as [M|M]; [|reflexivity]. exfalso. apply K. rewrite <- M. auto.
      + intros p Hp. assert (Hp2 : In p (upd (fdList s) pos (nth last (fdList s) pnone))).
        { revert Hp. generalize (upd (fdList s) pos (nth last (fdList s) pnone)). generalize last. clear. intros n. induction n as [|n IH]; intros [|y l]; cbn; intuition. }
        apply (In_nth _ _ pnone) in Hp2 as (i & Hi & <-). rewrite upd_length in Hi. destruct (Nat.eq_dec i pos) as [->|K]; [rewrite nth_upd_eq by assumption; apply nth_In; lia|rewrite nth_upd_ne by auto; apply nth_In; lia]. }
  destruct T as (l & x & idx & -> & Ll & Lx & Nl & Nx & FI & IN).
  set (s1 := withT s l x idx).
  assert (V : forall s2, fdList s2 = l -> fdExtra s2 = x -> fdIndex s2 = idx -> forall g, view s2 g = if g =? fd then None else view s g).
  { intros s2 E1 E2 E3 g. unfold view. rewrite E1, E2, E3, FI. destruct (Z.eqb_spec g fd) as [G|G]; [reflexivity|].
    destruct (find (fdIndex s) g) as [q|] eqn:EG; [|reflexivity]. destruct (F _ _ EG) as (A & B).
    assert (q <> pos) by (intros ->; congruence).
    destruct (Nat.eqb_spec q last) as [M|M].
    - rewrite Nl, Nx, Nat.eqb_refl, M by lia. reflexivity.
    - rewrite Nl, Nx by lia. destruct (Nat.eqb_spec q pos); [lia|reflexivity]. }
  assert (W1 : forall c, c = Z.min (Z.of_nat pos) (curPos s) -> wf (withCur s1 c)).
  { intros c ->. split; cbn [fdList fdExtra fdIndex curPos withCur withT s1].
    - lia.
    - intros g p H. rewrite FI in H. destruct (Z.eqb_spec g fd) as [G|G]; [discriminate|]. destruct (find (fdIndex s) g) as [q|] eqn:EG; [|discriminate]. injection H as <-.
      destruct (F _ _ EG) as (A & B). assert (q <> pos) by (intros ->; congruence).
      destruct (Nat.eqb_spec q last) as [M|M]; [rewrite Nl, Nat.eqb_refl by lia; subst q; split; [lia|exact B]|].
      rewrite Nl by lia. destruct (Nat.eqb_spec q pos); [lia|]. split; [lia|exact B].
    - intros i Hi. rewrite Nl by lia. rewrite FI. set (j := if Nat.eqb i pos then last else i).
      assert (J : (j < length (fdList s))%nat) by (unfold j; destruct (Nat.eqb_spec i pos); lia). rewrite (I j J).
      assert (JP : j <> pos) by (unfold j; destruct (Nat.eqb_spec i pos); lia).
      destruct (Z.eqb_spec (pf (nth j (fdList s) pnone)) fd) as [G|G]. { exfalso. apply JP. pose proof (I j J) as IJ. rewrite G, E in IJ. congruence. }
      f_equal. unfold j. destruct (Nat.eqb_spec i pos) as [->|K]; [rewrite Nat.eqb_refl; reflexivity|]. destruct (Nat.eqb_spec i last); [lia|reflexivity].
    - lia.
    - intros i Hi N. rewrite Nl in N by lia. destruct (Nat.eqb_spec i pos) as [->|K]; [lia|]. assert (curPos s <= Z.of_nat i) by (apply R; [lia|assumption]). lia. }
  assert (CU : (if Z.of_nat pos <? curPos s1 then withCur s1 (Z.of_nat pos) else s1) = withCur s1 (Z.min (Z.of_nat pos) (curPos s))).
  { change (curPos s1) with (curPos s). destruct (Z.of_nat pos <? curPos s) eqn:Q; [rewrite Z.min_l by lia; reflexivity|]. rewrite Z.min_r by lia. reflexivity. }
  cbv zeta. rewrite CU. split; [apply W1; reflexivity|]. split; [apply V; reflexivity|]. cbn [fdList withCur withT s1 curPos wake pending]. split; [lia|]. auto.
Qed.
Lemma unset_wf : forall s fd, wf s -> wf (snd (unset s fd)).
Proof. intros s fd W. unfold unset. destruct (find (fdIndex s) fd) as [p|] eqn:E; [|exact W]. exact (proj1 (remove_both s fd p W E)). Qed.
Lemma unset_view : forall s fd g, wf s -> view (snd (unset s fd)) g = if g =? fd then None else view s g.
Proof.
  intros s fd g W. unfold unset. destruct (find (fdIndex s) fd) as [p|] eqn:E; cbn [snd]. { apply (proj1 (proj2 (remove_both s fd p W E))). }
  destruct (Z.eqb_spec g fd) as [->|Q]; [|reflexivity]. unfold view. rewrite E. reflexivity.
Qed.
(** *** other operations: the descriptors and the extra data stay *)
Lemma same_wf : forall s l c, wf s -> length l = length (fdList s) -> (forall i, pf (nth i l pnone) = pf (nth i (fdList s) pnone)) -> 0 <= c ->
  (forall i, (i < length l)%nat -> revents (nth i l pnone) <> 0 -> c <= Z.of_nat i) -> wf (withCur (withL s l) c).
Proof.
  intros s l c [L F I C R] H1 H2 H3 H4. split; cbn [fdList fdExtra fdIndex curPos withCur withL]; auto.
  - congruence.
  - intros fd p H. rewrite H1, H2. auto.
  - intros i Hi. rewrite H2. apply I. congruence.
Qed.
Definition drop1 (p : pfd) := mkP (pf p) 0 (revents p).
Lemma drop_wf : forall s, wf s -> wf (dropAll s).
Proof.
  intros s W. unfold dropAll. change (withL (withCur s 0) ?l) with (withCur (withL s l) 0). apply same_wf; auto; [apply map_length| |lia|intros; lia].
  intros i. change pnone with (mkP (pf pnone) 0 (revents pnone)) at 1. rewrite (map_nth (fun p => mkP (pf p) 0 (revents p))). reflexivity.
Qed.
Lemma drop_view : forall s g, wf s -> view (dropAll s) g = match view s g with Some (p, x) => Some (drop1 p, x) | None => None end.
Proof.
  intros s g W. unfold view, dropAll. cbn [fdList fdExtra fdIndex withCur withL]. destruct (find (fdIndex s) g) as [q|] eqn:E; [|reflexivity].
  destruct (w_find s W _ _ E) as (A & _). rewrite (nth_indep _ pnone (drop1 pnone)) by (rewrite map_length; exact A).
  change (fun p : pfd => mkP (pf p) 0 (revents p)) with drop1. rewrite map_nth. reflexivity.
Qed.
Definition poll1 (a : answer) (p : pfd) (x : extra) : pfd := mkP (pf p) (if expired (now a) (xtm x) || bit (rep a (pf p)) 8 then 0 else events p) (rep a (pf p)).
Lemma poll_nth : forall a l x i, length x = length l -> (i < length l)%nat ->
  nth i (map (fun px : pfd * extra => let '(p, x) := px in mkP (pf p) (if expired (now a) (xtm x) || bit (rep a (pf p)) 8 then 0 else events p) (rep a (pf p))) (combine l x)) pnone
  = poll1 a (nth i l pnone) (nth i x xnone).
Proof.
  induction l as [|p l IH]; intros [|y x] i H Hi; cbn [length] in *; try lia. destruct i as [|i]; cbn; [reflexivity|]. apply IH; lia.
Qed.
Lemma poll_wf : forall s a, wf s -> wf (pollAll s a).
Proof.
  intros s a W. pose proof (w_len s W) as L. unfold pollAll. change (withL (withCur s 0) ?l) with (withCur (withL s l) 0).
  set (l := map _ _). assert (LL : length l = length (fdList s)) by (unfold l; rewrite map_length, combine_length; lia).
  apply same_wf; auto; [|lia|intros; lia]. intros i. destruct (lt_dec i (length (fdList s))) as [Q|Q].
  - unfold l. rewrite poll_nth by (auto; lia). reflexivity.
  - rewrite !nth_overflow by lia. reflexivity.
Qed.
Lemma poll_view : forall s a g, wf s -> view (pollAll s a) g = match view s g with Some (p, x) => Some (poll1 a p x, x) | None => None end.
Proof.
  intros s a g W. unfold view, pollAll. cbn [fdList fdExtra fdIndex withCur withL]. destruct (find (fdIndex s) g) as [q|] eqn:E; [|reflexivity].
  destruct (w_find s W _ _ E) as (A & _). rewrite poll_nth by (auto; apply (w_len s W)). reflexivity.
Qed.
(** *** looking for a signaled descriptor *)
Lemma seek_spec : forall l i cur, match seek l i cur with
  | Some j => i <= j < i + Z.of_nat (length l) /\ cur <= j /\ signaled (nth (Z.to_nat (j - i)) l pnone) = true
              /\ (forall k, (Z.of_nat k < j - i) -> cur <= i + Z.of_nat k -> signaled (nth k l pnone) = false)
  | None => forall k, (k < length l)%nat -> cur <= i + Z.of_nat k -> signaled (nth k l pnone) = false
  end.
Proof.
  induction l as [|p l IH]; intros i cur; cbn [seek length]. { intros k H. lia. }
  destruct ((cur <=? i) && signaled p) eqn:E.
  - apply andb_prop in E as (E1 & E2). rewrite Z.sub_diag. cbn [Z.to_nat nth]. split; [lia|]. split; [lia|]. split; [exact E2|]. intros; lia.
  - specialize (IH (i + 1) cur). destruct (seek l (i + 1) cur) as [j|].
    + destruct IH as (A & B & D & G). repeat split; try lia.
      * replace (Z.to_nat (j - i)) with (S (Z.to_nat (j - (i + 1)))) by lia. exact D.
      * intros [|k] H1 H2; cbn [nth]; [destruct (signaled p); [lia|reflexivity]|]. apply G; lia.
    + intros [|k] H1 H2; cbn [nth]; [destruct (signaled p); [lia|reflexivity]|]. apply IH; lia.
Qed.
Lemma notsig_rev : forall p, signaled p = false -> revents p = 0.
Proof. intros p H. unfold signaled in H. lia. Qed.
Definition quiet (s : st) : Prop := wake s = None /\ pending s = -1.
Definition info (p : pfd) (x : extra) : fdinfo := mkI (pf p) (eventsToWaitMask (revents p)) (xdata x) (xtm x).
Lemma find_wf : forall polls s, wf s -> match findSignaled polls s with
  | Got i s' _ => wf s' /\ 0 <= i < Z.of_nat (length (fdList s')) /\ curPos s' = i /\ signaled (nth (Z.to_nat i) (fdList s') pnone) = true
      /\ (forall g, option_map snd (view s' g) = option_map snd (view s g)) /\ wake s' = wake s /\ pending s' = pending s
  | Waits s' => wf s' /\ (forall g, option_map snd (view s' g) = option_map snd (view s g)) /\ wake s' = wake s /\ pending s' = pending s
  | Fails => fdList s = []
  end.
Proof.
  induction polls as [|a polls IH]; intros s W; cbn [findSignaled].
  all: destruct (Nat.eqb_spec (length (fdList s)) 0) as [Z0|Z0]; [destruct (fdList s); [reflexivity|discriminate Z0]|].
  all: pose proof (seek_spec (fdList s) 0 (curPos s)) as SK; destruct (seek (fdList s) 0 (curPos s)) as [j|].
  all: assert (W1 : (exists j, seek (fdList s) 0 (curPos s) = Some j) \/ True) by auto; clear W1.
  1, 3: (destruct SK as (A & B & D & G); rewrite Z.sub_0_r in *; destruct W as [L F I C R];
    split; [split; cbn [fdList fdExtra fdIndex curPos withCur]; auto; [lia|]|cbn [fdList withCur curPos]; repeat split; auto; lia];
    intros k Hk N; destruct (Z.leb_spec j (Z.of_nat k)) as [Q|Q]; [assumption|]; exfalso; apply N, notsig_rev, G; [lia|]; specialize (R k Hk N); lia).
  all: set (s1 := withCur s (Z.max (curPos s) (Z.of_nat (length (fdList s))))).
  all: assert (W1 : wf s1) by (destruct W as [L F I C R]; split; cbn [fdList fdExtra fdIndex curPos withCur s1]; auto; [lia|];
    intros k Hk N; exfalso; apply N, notsig_rev, SK; [assumption|]; specialize (R k Hk N); lia).
  - split; [assumption|]. repeat split; auto.
  - specialize (IH (pollAll s1 a) (poll_wf s1 a W1)).
    assert (VP : forall g, option_map snd (view (pollAll s1 a) g) = option_map snd (view s g)).
    { intros g. rewrite poll_view by assumption. change (view s1 g) with (view s g). destruct (view s g) as [[p x]|]; reflexivity. }
    destruct (findSignaled polls (pollAll s1 a)) as [i s' r|s'|].
    + destruct IH as (H1 & H2 & H3 & H4 & H5 & H6 & H7). repeat (split; [assumption|]). split; [intros g; rewrite H5; apply VP|]. auto.
    + destruct IH as (H1 & H5 & H6 & H7). split; [assumption|]. split; [intros g; rewrite H5; apply VP|]. auto.
    + exfalso. apply Z0. assert (length (fdList (pollAll s1 a)) = length (fdList s)); [|rewrite IH in *; cbn in *; lia].
      unfold pollAll. cbn [fdList withL withCur s1 fdExtra]. rewrite map_length, combine_length, (w_len s W). lia.
Qed.
Lemma seek_find : forall s polls i s' r, findSignaled polls s = Got i s' r -> wf s ->
  exists used, polls = used ++ r /\ (exists c, s' = withCur (fold_left pollAll used s) c) .
Proof.
  intros s polls. revert s. induction polls as [|a polls IH]; intros s i s' r; cbn [findSignaled].
  all: destruct (Nat.eqb_spec (length (fdList s)) 0) as [Z0|Z0]; [discriminate|]; destruct (seek (fdList s) 0 (curPos s)) as [j|].
  - intros H W. injection H as <- <- <-. exists []. split; [reflexivity|]. eexists; reflexivity.
  - discriminate.
  - intros H W. injection H as <- <- <-. exists []. split; [reflexivity|]. eexists; reflexivity.
  - intros H W. apply IH in H.
    + destruct H as (u & -> & c & E). exists (a :: u). split; [reflexivity|]. exists c. rewrite E. cbn [fold_left].
      change (pollAll (withCur s (Z.max (curPos s) (Z.of_nat (length (fdList s))))) a) with (pollAll s a). reflexivity.
    + change (wf (pollAll s a)). apply poll_wf. assumption.
Qed.
Lemma polls_wf : forall u s, wf s -> wf (fold_left pollAll u s).
Proof. induction u as [|a u IH]; intros s W; [assumption|]. cbn [fold_left]. apply IH, poll_wf, W. Qed.
Lemma polls_quiet : forall u s, quiet s -> quiet (fold_left pollAll u s).
Proof. induction u as [|a u IH]; intros s W; [assumption|]. cbn [fold_left]. apply IH. exact W. Qed.

Lemma poll_len : forall s a, wf s -> length (fdList (pollAll s a)) = length (fdList s).
Proof. intros s a W. unfold pollAll. cbn [fdList withL withCur fdExtra]. rewrite map_length, combine_length, (w_len s W). lia. Qed.
Lemma polls_len : forall u s, wf s -> fdIndex (fold_left pollAll u s) = fdIndex s /\ length (fdList (fold_left pollAll u s)) = length (fdList s).
Proof.
  induction u as [|a u IH]; intros s W; cbn [fold_left]; [auto|]. destruct (IH _ (poll_wf s a W)) as (-> & ->). split; [reflexivity|apply poll_len, W].
Qed.
Lemma view_nth : forall s i, wf s -> (i < length (fdList s))%nat -> view s (pf (nth i (fdList s) pnone)) = Some (nth i (fdList s) pnone, nth i (fdExtra s) xnone).
Proof. intros s i W H. unfold view. rewrite (w_idx s W i H). reflexivity. Qed.

(** what getNext does on a quiet object *)
Definition clear1 (p : pfd) := mkP (pf p) (events p) 0.
Lemma getNext_spec : forall polls s, wf s -> quiet s -> exists r, getNext polls s = Some r /\ match r with
  | Got x s' rest => wf s' /\ quiet s' /\ (exists used, polls = used ++ rest /\ exists p e, let s0 := fold_left pollAll used s in
        view s0 (ifd x) = Some (p, e) /\ x = info p e /\ signaled p = true
        /\ (forall g, view s' g = if g =? ifd x then Some (clear1 p, e) else view s0 g) /\ fdIndex s' = fdIndex s /\ length (fdList s') = length (fdList s))
  | Waits s' => wf s' /\ quiet s' /\ (forall g, option_map snd (view s' g) = option_map snd (view s g))
  | Fails => fdList s = []
  end.
Proof.
  intros polls s W (Q1 & Q2). unfold getNext, peek. rewrite Q2. cbn [Z.eqb negb Pos.eqb].
  pose proof (find_wf polls s W) as FW. pose proof (seek_find s polls) as SF.
  destruct (findSignaled polls s) as [i s1 rest|s1|].
  - destruct FW as (W1 & I1 & C1 & S1 & V1 & K1 & K2). destruct (SF _ _ _ eq_refl W) as (used & EU & c & E1).
    rewrite C1. destruct (Z.ltb_spec i (Z.of_nat (length (fdList s1)))) as [_|Q]; [|lia].
    cbn [wake withCur withL]. rewrite K1, Q1. eexists. split; [reflexivity|].
    set (p := nth (Z.to_nat i) (fdList s1) pnone) in *. set (e := nth (Z.to_nat i) (fdExtra s1) xnone).
    assert (IL : (Z.to_nat i < length (fdList s1))%nat) by lia.
    assert (NN : forall k, pf (nth k (upd (fdList s1) (Z.to_nat i) (clear1 p)) pnone) = pf (nth k (fdList s1) pnone)).
    { intros k. destruct (Nat.eq_dec k (Z.to_nat i)) as [->|K]; [rewrite nth_upd_eq by assumption; reflexivity|rewrite nth_upd_ne by auto; reflexivity]. }
    split.
    { apply (same_wf s1 (upd (fdList s1) (Z.to_nat i) (clear1 p))); auto; [apply upd_length|lia|].
      intros k Hk N. rewrite upd_length in Hk. destruct (Nat.eq_dec k (Z.to_nat i)) as [->|K]; [rewrite nth_upd_eq in N by assumption; cbn in N; contradiction|].
      rewrite nth_upd_ne in N by auto. pose proof (w_rev s1 W1 k Hk N). lia. }
    split; [split; cbn [wake pending withCur withL]; congruence|].
    exists used. split; [assumption|]. exists p, e. cbv zeta. cbn [ifd].
    assert (VE : forall g, view (fold_left pollAll used s) g = view s1 g) by (intros g; rewrite E1; reflexivity).
    split; [rewrite VE; apply view_nth; assumption|]. split; [reflexivity|]. split; [assumption|]. split.
    + intros g. rewrite VE. unfold view. cbn [fdList fdExtra fdIndex withCur withL]. destruct (Z.eqb_spec g (pf p)) as [->|G].
      * unfold p at 1. rewrite (w_idx s1 W1 _ IL). rewrite nth_upd_eq by assumption. reflexivity.
      * destruct (find (fdIndex s1) g) as [q|] eqn:EG; [|reflexivity]. destruct (w_find s1 W1 _ _ EG) as (_ & B). rewrite nth_upd_ne; [reflexivity|]. intros EQ. apply G. rewrite <- B. unfold p. rewrite ?EQ; rewrite <- ?EQ; reflexivity.
    + cbn [fdIndex fdList withCur withL]. rewrite upd_length, E1. cbn [fdIndex fdList withCur withL]. apply polls_len, W.
  - destruct FW as (W1 & V1 & K1 & K2). eexists. split; [reflexivity|]. split; [assumption|]. split; [split; congruence|assumption].
  - eexists. split; [reflexivity|]. assumption.
Qed.
(** *** histories *)
Fixpoint hist (l : list op) (h : list fdop) : list fdop :=
  match l with
  | [] => h
  | OSet i :: r => hist r (DSet (ifd i) (idata i) :: h)
  | OUnset fd :: r => hist r (DUnset fd :: h)
  | _ :: r => hist r h
  end.
Lemma getData_view : forall s fd, getData s fd = option_map (fun v : pfd * extra => xdata (snd v)) (view s fd).
Proof. intros s fd. unfold getData, view. destruct (find (fdIndex s) fd); reflexivity. Qed.
Definition vdata (v : option (pfd * extra)) : option Z := option_map xdata (option_map snd v).
Lemma getData_vdata : forall s fd, getData s fd = vdata (view s fd).
Proof. intros s fd. rewrite getData_view. unfold vdata. destruct (view s fd); reflexivity. Qed.
Lemma polls_data : forall u s g, wf s -> option_map snd (view (fold_left pollAll u s) g) = option_map snd (view s g).
Proof.
  induction u as [|a u IH]; intros s g W; cbn [fold_left]; [reflexivity|]. rewrite IH by (apply poll_wf, W). rewrite poll_view by assumption. destruct (view s g) as [[p x]|]; reflexivity.
Qed.
Lemma step_wf : forall o s, wf s -> quiet s -> exists s', step s o = Some s' /\ wf s' /\ quiet s'
  /\ forall h, (forall fd, getData s fd = registered h fd) -> forall fd, getData s' fd = registered (hist [o] h) fd.
Proof.
  intros o s W Q. destruct o as [i|fd| |a|polls]; cbn [step hist].
  - eexists. split; [reflexivity|]. split; [apply set_wf, W|]. split; [unfold set_; destruct (find (fdIndex s) (ifd i)); exact Q|].
    intros h H g. rewrite getData_view, set_view by assumption. cbn [registered]. rewrite (Z.eqb_sym (ifd i)). destruct (g =? ifd i); [reflexivity|]. rewrite <- getData_view. apply H.
  - eexists. split; [reflexivity|]. split; [apply unset_wf, W|].
    split. { unfold unset. destruct (find (fdIndex s) fd) as [p|] eqn:E; [|exact Q]. destruct (remove_both s fd p W E) as (_ & _ & _ & _ & _ & A & B). split; cbn [snd]; [rewrite A; apply Q|rewrite B; apply Q]. }
    intros h H g. rewrite getData_view, unset_view by assumption. cbn [registered]. rewrite (Z.eqb_sym fd). destruct (g =? fd); [reflexivity|]. rewrite <- getData_view. apply H.
  - eexists. split; [reflexivity|]. split; [apply drop_wf, W|]. split; [exact Q|]. intros h H g. rewrite <- H, !getData_vdata, drop_view by assumption. destruct (view s g) as [[p x]|]; reflexivity.
  - eexists. split; [reflexivity|]. split; [apply poll_wf, W|]. split; [exact Q|]. intros h H g. rewrite <- H, !getData_vdata, poll_view by assumption. destruct (view s g) as [[p x]|]; reflexivity.
  - destruct (getNext_spec polls s W Q) as (r & -> & G). destruct r as [x s' rest|s'|].
    + destruct G as (W1 & Q1 & used & _ & p & e & V0 & _ & _ & V & _). eexists. split; [reflexivity|]. split; [assumption|]. split; [assumption|].
      intros h H g. rewrite <- H, !getData_vdata, V. unfold vdata. destruct (Z.eqb_spec g (ifd x)) as [->|N]; [|rewrite polls_data by assumption; reflexivity].
      rewrite <- (polls_data used s) by assumption. rewrite V0. reflexivity.
    + destruct G as (W1 & Q1 & V). eexists. split; [reflexivity|]. split; [assumption|]. split; [assumption|]. intros h H g. rewrite <- H, !getData_vdata. unfold vdata. rewrite V. reflexivity.
    + eexists. split; [reflexivity|]. split; [assumption|]. split; [assumption|]. auto.
Qed.
Lemma hist_cons : forall o l h, hist (o :: l) h = hist l (hist [o] h).
Proof. intros [] l h; reflexivity. Qed.
Lemma run_wf : forall l s h, wf s -> quiet s -> (forall fd, getData s fd = registered h fd) -> exists s', run l s = Some s' /\ wf s' /\ quiet s' /\ forall fd, getData s' fd = registered (hist l h) fd.
Proof.
  induction l as [|o l IH]; intros s h W Q H; cbn [run]. { exists s. auto. }
  destruct (step_wf o s W Q) as (s' & -> & W' & Q' & D). rewrite hist_cons. apply IH; auto.
Qed.
Lemma quiet_init : quiet init.
Proof. split; reflexivity. Qed.
Lemma run_init : forall l, exists s', run l init = Some s' /\ wf s' /\ quiet s' /\ forall fd, getData s' fd = registered (hist l []) fd.
Proof. intros l. apply run_wf; [apply wf_init|apply quiet_init|reflexivity]. Qed.

(** *** reading everything that is signaled *)
Fixpoint drain (n : nat) (s : st) : list fdinfo :=
  match n with
  | O => []
  | S n => match getNext [] s with Some (Got x s' _) => x :: drain n s' | _ => [] end
  end.
Definition sel (s : st) (c : nat) : list fdinfo := map (fun px => info (fst px) (snd px)) (filter (fun px => signaled (fst px)) (skipn c (combine (fdList s) (fdExtra s)))).
Lemma nth_combine : forall l x i, length x = length l -> nth i (combine l x) (pnone, xnone) = (nth i l pnone, nth i x xnone).
Proof. induction l as [|p l IH]; intros [|y x] [|i] H; cbn in *; try lia; try reflexivity. apply IH. lia. Qed.
Lemma filter_first : forall A (f : A -> bool) d l c j, (c <= j < length l)%nat -> f (nth j l d) = true -> (forall k, (c <= k < j)%nat -> f (nth k l d) = false) ->
  filter f (skipn c l) = nth j l d :: filter f (skipn (S j) l).
Proof.
  intros A f d. induction l as [|y l IH]; intros c j H1 H2 H3; cbn [length] in H1; [lia|]. destruct c as [|c].
  - destruct j as [|j]; [cbn in *; rewrite H2; reflexivity|]. cbn [skipn filter]. pose proof (H3 O ltac:(lia)) as H0. cbn [nth] in H0. rewrite H0.
    specialize (IH O j ltac:(lia) H2). cbn [skipn] in IH. rewrite IH; [reflexivity|]. intros k Hk. apply (H3 (S k)). lia.
  - destruct j as [|j]; [lia|]. cbn [skipn nth]. apply IH; [lia|exact H2|]. intros k Hk. apply (H3 (S k)). lia.
Qed.
Lemma filter_none : forall A (f : A -> bool) d l c, (forall k, (c <= k < length l)%nat -> f (nth k l d) = false) -> filter f (skipn c l) = [].
Proof.
  intros A f d. induction l as [|y l IH]; intros c H; [rewrite skipn_nil; reflexivity|]. destruct c as [|c].
  - cbn [skipn filter]. pose proof (H O ltac:(cbn; lia)) as H0. cbn [nth] in H0. rewrite H0. specialize (IH O). cbn [skipn] in IH. apply IH. intros k Hk. apply (H (S k)). cbn. lia.
  - cbn [skipn]. apply IH. intros k Hk. apply (H (S k)). cbn. lia.
Qed.
Lemma skipn_upd : forall A (l : list A) i x c, (i < c)%nat -> skipn c (upd l i x) = skipn c l.
Proof. intros A. induction l as [|y l IH]; intros [|i] x [|c] H; cbn; try lia; auto. apply IH. lia. Qed.
Lemma skipn_combine : forall A B (l : list A) (x : list B) c, skipn c (combine l x) = combine (skipn c l) (skipn c x).
Proof. intros A B. induction l as [|y l IH]; intros [|z x] [|c]; cbn; auto. destruct (skipn c l); reflexivity. Qed.
Definition next_st (s : st) (j : Z) : st := withCur (withL s (upd (fdList s) (Z.to_nat j) (clear1 (nth (Z.to_nat j) (fdList s) pnone)))) (j + 1).
Lemma getNext_nil : forall polls s j, quiet s -> seek (fdList s) 0 (curPos s) = Some j ->
  getNext polls s = Some (Got (info (nth (Z.to_nat j) (fdList s) pnone) (nth (Z.to_nat j) (fdExtra s) xnone)) (next_st s j) polls).
Proof.
  intros polls s j Q E. pose proof (seek_spec (fdList s) 0 (curPos s)) as SK. rewrite E in SK. destruct SK as (A & B & _).
  unfold getNext, peek. rewrite (proj2 Q). cbn [Z.eqb negb Pos.eqb].
  assert (FS : findSignaled polls s = Got j (withCur s j) polls). { destruct polls; cbn [findSignaled]; (destruct (Nat.eqb_spec (length (fdList s)) 0); [lia|]); rewrite E; reflexivity. }
  rewrite FS. cbn [curPos withCur fdList fdExtra wake withL]. rewrite (proj1 Q). destruct (Z.ltb_spec j (Z.of_nat (length (fdList s)))) as [_|QQ]; [|lia]. reflexivity.
Qed.
Lemma drain_sel : forall n s, wf s -> quiet s -> (Z.of_nat (length (fdList s)) - curPos s <= Z.of_nat n) -> drain n s = sel s (Z.to_nat (curPos s)).
Proof.
  induction n as [|n IH]; intros s W Q H; cbn [drain]; pose proof (w_cur s W) as C0.
  { unfold sel. rewrite skipn_all2; [reflexivity|]. rewrite combine_length. lia. }
  pose proof (seek_spec (fdList s) 0 (curPos s)) as SK. destruct (seek (fdList s) 0 (curPos s)) as [j|] eqn:ES.
  - destruct SK as (A & B & D & G). rewrite Z.sub_0_r in *. pose proof (getNext_nil [] s j Q ES) as GN.
    destruct (getNext_spec [] s W Q) as (r & EG & GS). rewrite GN in EG. injection EG as <-. rewrite GN. destruct GS as (W1 & Q1 & _).
    rewrite IH; auto; [|cbn [fdList curPos next_st withCur withL]; rewrite upd_length; lia].
    unfold sel. cbn [fdList fdExtra curPos next_st withCur withL].
    rewrite (filter_first _ _ (pnone, xnone) (combine (fdList s) (fdExtra s)) (Z.to_nat (curPos s)) (Z.to_nat j)).
    + rewrite nth_combine by apply (w_len s W). cbn [map fst snd]. f_equal. replace (Z.to_nat (j + 1)) with (S (Z.to_nat j)) by lia.
      rewrite !skipn_combine, skipn_upd by lia. reflexivity.
    + rewrite combine_length, (w_len s W). lia.
    + rewrite nth_combine by apply (w_len s W). exact D.
    + intros k Hk. rewrite nth_combine by apply (w_len s W). apply G; lia.
  - assert (E : match getNext [] s with Some (Got x s' _) => x :: drain n s' | _ => [] end = []).
    { unfold getNext, peek. rewrite (proj2 Q). cbn [Z.eqb negb Pos.eqb findSignaled]. rewrite ES. destruct (Nat.eqb _ _); reflexivity. }
    rewrite E. unfold sel. rewrite (filter_none _ _ (pnone, xnone)); [reflexivity|]. intros k Hk. rewrite combine_length in Hk. rewrite nth_combine by apply (w_len s W). cbn [fst]. apply SK; lia.
Qed.
Lemma nodup_pf : forall s, wf s -> NoDup (map pf (fdList s)).
Proof.
  intros s W. apply (NoDup_nth _ (pf pnone)). rewrite map_length. intros i j Hi Hj E. rewrite !map_nth in E.
  pose proof (w_idx s W i Hi) as A. pose proof (w_idx s W j Hj) as B. rewrite E, B in A. congruence.
Qed.
Lemma map_filter_nodup : forall A B (f : A -> B) (g : A -> bool) l, NoDup (map f l) -> NoDup (map f (filter g l)).
Proof.
  intros A B f g. induction l as [|x l IH]; cbn; intros H; [constructor|]. inversion H as [|? ? N H2]; subst. destruct (g x); cbn; [|auto]. constructor; [|auto].
  intros K. apply N. apply in_map_iff in K as (y & <- & Hy). apply in_map. apply filter_In in Hy. apply Hy.
Qed.
Lemma map_fst_combine : forall A B (l : list A) (x : list B), length x = length l -> map fst (combine l x) = l.
Proof. intros A B. induction l as [|y l IH]; intros [|z x] H; cbn in *; try lia; [reflexivity|]. f_equal. apply IH. lia. Qed.
Lemma skipn_nodup : forall A (l : list A) c, NoDup l -> NoDup (skipn c l).
Proof. intros A. induction l as [|y l IH]; intros [|c] H; cbn; auto. apply IH. inversion H; assumption. Qed.
Lemma skipn_map' : forall A B (f : A -> B) l c, map f (skipn c l) = skipn c (map f l).
Proof. intros A B f. induction l as [|y l IH]; intros [|c]; cbn; auto. Qed.
Lemma sel_nodup : forall s c, wf s -> NoDup (map ifd (sel s c)).
Proof.
  intros s c W. unfold sel. rewrite map_map. cbn [info ifd]. apply (map_filter_nodup _ _ (fun px : pfd * extra => pf (fst px))).
  rewrite skipn_map'. apply skipn_nodup. rewrite <- map_map, map_fst_combine by apply (w_len s W). apply nodup_pf, W.
Qed.
Lemma sel_in : forall s c x, wf s -> In x (sel s c) -> exists p e, view s (ifd x) = Some (p, e) /\ x = info p e /\ signaled p = true.
Proof.
  intros s c x W H. unfold sel in H. apply in_map_iff in H as ((p & e) & <- & H). apply filter_In in H as (H & S1). cbn [fst snd] in *.
  assert (H2 : In (p, e) (combine (fdList s) (fdExtra s))). { rewrite <- (firstn_skipn c). apply in_or_app. right. exact H. }
  apply (In_nth _ _ (pnone, xnone)) in H2 as (i & Hi & E). rewrite combine_length in Hi. rewrite nth_combine in E by apply (w_len s W). injection E as <- <-.
  exists (nth i (fdList s) pnone), (nth i (fdExtra s) xnone). split; [apply view_nth; auto; lia|]. auto.
Qed.
Lemma in_sel : forall s c fd p e, wf s -> view s fd = Some (p, e) -> signaled p = true -> (forall i, (i < length (fdList s))%nat -> nth i (fdList s) pnone = p -> (c <= i)%nat) ->
  In (info p e) (sel s c) /\ ifd (info p e) = fd.
Proof.
  intros s c fd p e W V S1 H. unfold view in V. destruct (find (fdIndex s) fd) as [i|] eqn:E; [|discriminate]. injection V as <- <-. destruct (w_find s W _ _ E) as (A & B).
  split; [|exact B]. unfold sel. apply (in_map (fun px => info (fst px) (snd px)) _ (nth i (fdList s) pnone, nth i (fdExtra s) xnone)). apply filter_In. split; [|exact S1].
  specialize (H i A eq_refl). rewrite <- nth_combine by apply (w_len s W).
  assert (G : forall A (l : list A) c i d, (c <= i < length l)%nat -> In (nth i l d) (skipn c l)).
  { clear. intros A. induction l as [|y l IH]; intros [|c] [|i] d H; cbn in *; try lia; auto. - right. apply nth_In. lia. - apply IH. lia. }
  apply G. rewrite combine_length, (w_len s W). lia.
Qed.
(** *** everything is dropped *)
Fixpoint shutdown (n : nat) (s : st) : list fdinfo * st :=
  match n with
  | O => ([], s)
  | S n => match getNext [] s with
           | Some (Got x s' _) => let r := shutdown n (snd (unset s' (ifd x))) in (x :: fst r, snd r)
           | _ => ([], s)
           end
  end.
Lemma shut_all : forall n s, wf s -> quiet s -> curPos s = 0 -> (forall p, In p (fdList s) -> events p = 0) -> length (fdList s) = n ->
  fdList (snd (shutdown n s)) = [] /\ NoDup (map ifd (fst (shutdown n s)))
  /\ (forall fd d, getData s fd = Some d <-> exists x, In x (fst (shutdown n s)) /\ ifd x = fd /\ idata x = d).
Proof.
  induction n as [|n IH]; intros s W Q C E L.
  - cbn. split; [destruct (fdList s); [reflexivity|discriminate L]|]. split; [constructor|]. intros fd d. split; [|intros (x & [] & _)].
    intros H. unfold getData in H. destruct (find (fdIndex s) fd) as [p|] eqn:F; [|discriminate]. destruct (w_find s W _ _ F). lia.
  - assert (SK : seek (fdList s) 0 (curPos s) = Some 0).
    { rewrite C. destruct (fdList s) as [|p l] eqn:EL; [discriminate L|]. cbn [seek]. replace (signaled p) with true; [reflexivity|]. unfold signaled. rewrite (E p) by (left; reflexivity). lia. }
    pose proof (getNext_nil [] s 0 Q SK) as GN. destruct (getNext_spec [] s W Q) as (r & EG & GS). rewrite GN in EG. injection EG as <-.
    destruct GS as (W1 & Q1 & used & EU & p0 & e0 & V0 & EX & S0 & V1 & I1 & L1). assert (used = []) by (destruct used; [reflexivity|discriminate EU]). subst used. cbn [fold_left] in *. clear EU.
    cbn [shutdown]. rewrite GN. cbv zeta. set (x := info _ _) in *. set (s1 := next_st s 0) in *. cbn [fst snd].
    assert (F : find (fdIndex s1) (ifd x) = Some O). { change (fdIndex s1) with (fdIndex s). unfold x. cbn [info ifd Z.to_nat]. apply (w_idx s W). lia. }
    destruct (remove_both s1 (ifd x) O W1 F) as (W2 & V2 & L2 & C2 & IN2 & K1 & K2).
    assert (U : snd (unset s1 (ifd x)) = removeFd s1 0) by (unfold unset; rewrite F; reflexivity). rewrite U. set (s2 := removeFd s1 0) in *.
    destruct (IH s2 W2) as (A & B & D).
    + split; [rewrite K1; apply Q1|rewrite K2; apply Q1].
    + rewrite C2. pose proof (w_cur s1 W1). lia.
    + intros p Hp. apply IN2 in Hp. unfold s1, next_st in Hp. cbn [fdList withCur withL] in Hp. apply (In_nth _ _ pnone) in Hp as (i & Hi & <-). rewrite upd_length in Hi.
      destruct (Nat.eq_dec i (Z.to_nat 0)) as [->|K]; [rewrite nth_upd_eq by assumption; cbn [clear1 events]; apply E, nth_In; assumption|rewrite nth_upd_ne by auto; apply E, nth_In; assumption].
    + lia.
    + split; [exact A|]. split.
      * cbn [map]. constructor; [|exact B]. intros K. apply in_map_iff in K as (y & EY & HY).
        assert (G : getData s2 (ifd y) = Some (idata y)) by (apply D; exists y; auto). rewrite getData_vdata, V2, EY, Z.eqb_refl in G. discriminate G.
      * intros fd d. destruct (Z.eq_dec fd (ifd x)) as [->|N].
        -- assert (GX : getData s (ifd x) = Some (idata x)). { rewrite getData_vdata, V0. rewrite EX. reflexivity. }
           rewrite GX. split; [intros H; injection H as <-; exists x; cbn; auto|]. intros (y & [<-|HY] & EY & ED); [congruence|].
           assert (G : getData s2 (ifd y) = Some (idata y)) by (apply D; exists y; auto). rewrite getData_vdata, V2, EY, Z.eqb_refl in G. discriminate G.
        -- assert (G : getData s fd = getData s2 fd). { rewrite !getData_vdata, V2, V1. destruct (Z.eqb_spec fd (ifd x)); [lia|reflexivity]. }
           rewrite G, D. split; intros (y & HY & R); [exists y; cbn; auto|]. destruct HY as [<-|HY]; [lia|]. exists y. auto.
Qed.
(** *** the time of a poll *)
Lemma fold_min : forall rems m, let f := fold_left (fun m r => match r with Some c => if c <? m then c else m | None => m end) rems m in
  f <= m /\ (forall c, In (Some c) rems -> f <= c) /\ (f = m \/ In (Some f) rems).
Proof.
  induction rems as [|r rems IH]; intros m; cbn [fold_left]; cbv zeta. { repeat split; [lia|intros c []|auto]. }
  set (m1 := match r with Some c => if c <? m then c else m | None => m end). destruct (IH m1) as (A & B & D).
  assert (M : m1 <= m /\ (forall c, r = Some c -> m1 <= c) /\ (m1 = m \/ r = Some m1)).
  { unfold m1. destruct r as [c|]; [destruct (Z.ltb_spec c m)|]; repeat split; try lia; auto; intros c' E; try discriminate; injection E as <-; lia. }
  destruct M as (M1 & M2 & M3). repeat split; [lia| |].
  - intros c [->|H]; [specialize (M2 c eq_refl); lia|auto].
  - destruct D as [D|D]; [|right; right; exact D]. rewrite D. destruct M3 as [->|M3]; [auto|right; left; exact M3].
Qed.
(** *** masks *)
Lemma bit_test : forall m n, 0 <= n -> bit m (2 ^ n) = Z.testbit m n.
Proof.
  intros m n H. unfold bit. destruct (Z.testbit m n) eqn:E.
  - assert (N : Z.land m (2 ^ n) <> 0). { intros Z0. assert (T : Z.testbit (Z.land m (2 ^ n)) n = false) by (rewrite Z0; apply Z.testbit_0_l). rewrite Z.land_spec, E, Z.pow2_bits_true in T by assumption. discriminate. }
    destruct (Z.eqb_spec (Z.land m (2 ^ n)) 0); [contradiction|reflexivity].
  - assert (Z0 : Z.land m (2 ^ n) = 0). { apply Z.bits_inj'. intros k Hk. rewrite Z.land_spec, Z.pow2_bits_eqb, Z.testbit_0_l by assumption. destruct (Z.eqb_spec n k) as [<-|]; [rewrite E; reflexivity|apply andb_false_r]. }
    rewrite Z0. reflexivity.
Qed.
Lemma masks : forall m, eventsToWaitMask m = report_mask m /\ waitMaskToEvents m = watch_mask m.
Proof.
  intros m. unfold eventsToWaitMask, waitMaskToEvents, report_mask, watch_mask.
  change (bit m 32) with (bit m (2 ^ 5)). change (bit m 16) with (bit m (2 ^ 4)). change (bit m 4) with (bit m (2 ^ 2)). change (bit m 2) with (bit m (2 ^ 1)). change (bit m 1) with (bit m (2 ^ 0)).
  rewrite !bit_test by lia. destruct (Z.testbit m 0), (Z.testbit m 1), (Z.testbit m 2), (Z.testbit m 4), (Z.testbit m 5); split; reflexivity.
Qed.
