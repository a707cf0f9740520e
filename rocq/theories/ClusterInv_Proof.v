From Coq Require Import ZArith Permutation.
From Verif Require Import Common ClusterAlloc_Spec ClusterAlloc_Model ClusterAlloc_Proof.
Local Open Scope Z_scope.

(** ** tables of clusters *)
Definition nodupB (cs : list cluster) : Prop := NoDup (map cBase cs).

Lemma nodup_same {A} (f : A -> Z) : forall l x y, NoDup (map f l) -> In x l -> In y l -> f x = f y -> x = y.
Proof.
  induction l as [|a l IH]; intros x y N Hx Hy E; [destruct Hx|]. cbn [map] in N. apply NoDup_cons_iff in N as [N1 N2].
  destruct Hx as [->|Hx], Hy as [->|Hy]; auto.
  - exfalso. apply N1. rewrite E. apply in_map; auto.
  - exfalso. apply N1. rewrite <- E. apply in_map; auto.
Qed.

Lemma findC_in : forall cs c, nodupB cs -> In c cs -> findC (cBase c) cs = Some c.
Proof.
  induction cs as [|d cs IH]; intros c N H; [destruct H|]. cbn [findC]. unfold nodupB in N. cbn [map] in N.
  apply NoDup_cons_iff in N as [N1 N2]. destruct H as [->|H]; [rewrite Z.eqb_refl; auto|].
  destruct (Z.eqb_spec (cBase d) (cBase c)) as [E|_]; [|apply IH; auto]. exfalso. apply N1. rewrite E. apply in_map; auto.
Qed.
Lemma getC_in cs c : nodupB cs -> In c cs -> getC (cBase c) cs = Ok c.
Proof. intros N H. unfold getC. rewrite findC_in; auto. Qed.

Lemma in_putC c d cs : In d (putC c cs) <-> (In d cs /\ cBase d <> cBase c) \/ (d = c /\ In (cBase c) (map cBase cs)).
Proof.
  unfold putC. rewrite in_map_iff. split.
  - intros (e & E & He). destruct (Z.eqb_spec (cBase e) (cBase c)) as [X|X]; subst d; [right|left; auto].
    split; auto. rewrite <- X. apply in_map; auto.
  - intros [[H N]|[-> H]].
    + exists d. destruct (Z.eqb_spec (cBase d) (cBase c)); [contradiction|auto].
    + apply in_map_iff in H as (e & E & He). exists e. rewrite E, Z.eqb_refl. auto.
Qed.
Lemma putC_bases c cs : map cBase (putC c cs) = map cBase cs.
Proof.
  unfold putC. rewrite map_map. apply map_ext. intros d. destruct (Z.eqb_spec (cBase d) (cBase c)); auto.
Qed.
Lemma putC_length c cs : length (putC c cs) = length cs.
Proof. apply map_length. Qed.
Lemma in_dropC b d cs : In d (dropC b cs) <-> In d cs /\ cBase d <> b.
Proof.
  unfold dropC. rewrite filter_In. rewrite negb_true_iff, Z.eqb_neq. tauto.
Qed.
Lemma dropC_nodup b cs : nodupB cs -> nodupB (dropC b cs).
Proof.
  unfold nodupB. induction cs as [|d cs IH]; intros N; auto. cbn [map] in N. apply NoDup_cons_iff in N as [N1 N2].
  cbn [dropC filter]. destruct (negb (cBase d =? b)); [|apply IH; auto]. cbn [map]. constructor; [|apply IH; auto].
  intros X. apply N1. apply in_map_iff in X as (e & E & He). apply filter_In in He as [He _]. rewrite <- E. apply in_map; auto.
Qed.
Lemma dropC_length b : forall cs, In b (map cBase cs) -> (length (dropC b cs) < length cs)%nat.
Proof.
  assert (Le : forall cs, (length (dropC b cs) <= length cs)%nat).
  { unfold dropC. induction cs as [|d cs IH]; cbn [filter length]; auto. destruct (negb _); cbn [length]; lia. }
  induction cs as [|d cs IH]; intros H; [destruct H|]. cbn [dropC filter map length] in *.
  destruct (Z.eqb_spec (cBase d) b) as [E|E]; cbn [negb].
  - specialize (Le cs). unfold dropC in Le. lia.
  - destruct H as [H|H]; [congruence|]. specialize (IH H). unfold dropC in IH. cbn [length]. lia.
Qed.

(** ** tables of multiclusters *)
Lemma findM_in : forall ms m, NoDup (map mSize ms) -> In m ms -> findM (mSize m) ms = Some m.
Proof.
  induction ms as [|d ms IH]; intros m N H; [destruct H|]. cbn [findM]. cbn [map] in N.
  apply NoDup_cons_iff in N as [N1 N2]. destruct H as [->|H]; [rewrite Z.eqb_refl; auto|].
  destruct (Z.eqb_spec (mSize d) (mSize m)) as [E|_]; [|apply IH; auto]. exfalso. apply N1. rewrite E. apply in_map; auto.
Qed.
Lemma findM_some : forall ms bk m, findM bk ms = Some m -> In m ms /\ mSize m = bk.
Proof.
  induction ms as [|d ms IH]; intros bk m H; [discriminate|]. cbn [findM] in H.
  destruct (Z.eqb_spec (mSize d) bk) as [E|_]; [injection H as <-; split; [left|]; auto|].
  apply IH in H as [H1 H2]. split; [right|]; auto.
Qed.
Lemma findM_none : forall ms bk, findM bk ms = None -> ~ In bk (map mSize ms).
Proof.
  induction ms as [|d ms IH]; intros bk H; [intros []|]. cbn [findM] in H.
  destruct (Z.eqb_spec (mSize d) bk) as [E|E]; [discriminate|]. intros [X|X]; [contradiction|]. apply (IH bk); auto.
Qed.
Lemma in_putM m d ms : In d (putM m ms) <-> (In d ms /\ mSize d <> mSize m) \/ (d = m /\ In (mSize m) (map mSize ms)).
Proof.
  unfold putM. rewrite in_map_iff. split.
  - intros (e & E & He). destruct (Z.eqb_spec (mSize e) (mSize m)) as [X|X]; subst d; [right|left; auto].
    split; auto. rewrite <- X. apply in_map; auto.
  - intros [[H N]|[-> H]].
    + exists d. destruct (Z.eqb_spec (mSize d) (mSize m)); [contradiction|auto].
    + apply in_map_iff in H as (e & E & He). exists e. rewrite E, Z.eqb_refl. auto.
Qed.
Lemma putM_sizes m ms : map mSize (putM m ms) = map mSize ms.
Proof.
  unfold putM. rewrite map_map. apply map_ext. intros d. destruct (Z.eqb_spec (mSize d) (mSize m)); auto.
Qed.

(** ** the list of clusters with a free block *)
Fixpoint lpath (cs : list cluster) (f : option Z) (L : list Z) : Prop :=
  match L with
  | [] => f = None
  | b :: L' => f = Some b /\ exists c, In c cs /\ cBase c = b /\ lpath cs (cNext c) L'
  end.

(** clusters of the list keep their address and successor *)
Lemma lpath_ext cs cs' : forall L f,
  (forall c, In c cs -> In (cBase c) L -> exists c', In c' cs' /\ cBase c' = cBase c /\ cNext c' = cNext c) ->
  lpath cs f L -> lpath cs' f L.
Proof.
  induction L as [|b L IH]; intros f H P; cbn [lpath] in *; auto. destruct P as [E (c & Hc & B & P)]. split; auto.
  destruct (H c Hc (or_introl (eq_sym B))) as (c' & Hc' & B' & N'). exists c'. split; auto. split; [congruence|].
  rewrite N'. apply IH; auto. intros d Hd Ld. apply H; auto. right; auto.
Qed.

Lemma lpath_split cs : forall L1 f b L2, lpath cs f (L1 ++ b :: L2) ->
  exists c, In c cs /\ cBase c = b /\ lpath cs (cNext c) L2.
Proof.
  induction L1 as [|a L1 IH]; intros f b L2 P; cbn [app lpath] in P; destruct P as [_ (c & Hc & B & P)].
  - exists c; auto.
  - apply (IH (cNext c)); auto.
Qed.

(** replacing what follows [b] *)
Lemma lpath_replace cs cs' : forall L1 f b L2 L3,
  (forall c, In c cs -> In (cBase c) L1 -> exists c', In c' cs' /\ cBase c' = cBase c /\ cNext c' = cNext c) ->
  (exists c', In c' cs' /\ cBase c' = b /\ lpath cs' (cNext c') L3) ->
  lpath cs f (L1 ++ b :: L2) -> lpath cs' f (L1 ++ b :: L3).
Proof.
  induction L1 as [|a L1 IH]; intros f b L2 L3 H R P; cbn [app lpath] in *; destruct P as [E (c & Hc & B & P)]; split; auto.
  destruct (H c Hc (or_introl (eq_sym B))) as (c' & Hc' & B' & N'). exists c'. split; auto. split; [congruence|].
  rewrite N'. apply (IH (cNext c) b L2); auto. intros d Hd Ld. apply H; auto. right; auto.
Qed.

(** ** the invariant *)
Definition use (sz0 : Z) (c : cluster) : Z := memoryUsage sz0 (cCount c) (cSize c).

Record InvC (sz0 : Z) (F : Z -> list Z) (cs : list cluster) : Prop := {
  icN : nodupB cs;
  icC : forall c, In c cs -> CI c (F (cBase c));
  icA : forall c d, In c cs -> In d cs -> cBase c <> cBase d -> apart (cBase c) (use sz0 c) (cBase d) (use sz0 d) }.

Record InvG (F G : Z -> list Z) (cs : list cluster) (ms : list multi) : Prop := {
  igN : NoDup (map mSize ms);
  igM : forall m, In m ms -> 1 <= mNextCnt m <= 255 /\ 1 <= mSize m /\ lpath cs (mFree m) (G (mSize m));
  igS : forall c, In c cs -> In (cSize c) (map mSize ms);
  igD : forall bk, NoDup (G bk);
  igF : forall bk b, In b (G bk) <-> exists c, In c cs /\ cBase c = b /\ cSize c = bk /\ F b <> [] }.

Record InvL (sz0 : Z) (F : Z -> list Z) (cs : list cluster) (live : list block) : Prop := {
  ilN : NoDup (map addr live);
  ilB : forall p n o, In (p, n, o) live -> 1 <= n /\
    exists c i, In c cs /\ cBase c = o /\ cSize c = objSize2bksize n /\ p = mapIndex sz0 c i /\
      0 <= i < cCount c /\ ~ In i (F o);
  ilU : forall c i, In c cs -> 0 <= i < cCount c -> ~ In i (F (cBase c)) -> In (mapIndex sz0 c i) (map addr live) }.

Definition InvA (sz0 : Z) (s : cst) : Prop := Permutation (sObtained s) (areas sz0 s ++ sReturned s).

Record Inv (sz0 : Z) (F G : Z -> list Z) (s : cst) (live : list block) : Prop := {
  ivC : InvC sz0 F (sClusters s);
  ivG : InvG F G (sClusters s) (sMultis s);
  ivL : InvL sz0 F (sClusters s) live;
  ivA : InvA sz0 s }.

Definition set (F : Z -> list Z) (b : Z) (l : list Z) : Z -> list Z := fun x => if x =? b then l else F x.
Lemma set_eq F b l : set F b l b = l.
Proof. unfold set. rewrite Z.eqb_refl. auto. Qed.
Lemma set_ne F b l x : x <> b -> set F b l x = F x.
Proof. intros N. unfold set. apply Z.eqb_neq in N. rewrite N. auto. Qed.

Lemma Inv_empty sz0 : Inv sz0 (fun _ => []) (fun _ => []) emptyAlloc [].
Proof.
  split; cbn [sClusters sMultis emptyAlloc].
  - split; [constructor|intros c []|intros c d []].
  - split; [constructor|intros m []|intros c []|constructor|]. intros bk b. split; [intros []|intros (c & [] & _)].
  - split; [constructor|intros p n o []|intros c i []].
  - constructor.
Qed.

(** geometry *)
Section Geo.
Variable sz0 : Z.
Hypothesis Sz : 1 <= sz0.
Lemma hdr_pos : 1 <= hdr sz0.
Proof. pose proof (hdr_ok sz0 Sz). lia. Qed.

Lemma block_in c i : 1 <= cSize c -> 0 <= i < cCount c ->
  cBase c < mapIndex sz0 c i /\ mapIndex sz0 c i + cSize c <= cBase c + use sz0 c.
Proof. intros B R. pose proof hdr_pos. unfold mapIndex, use, memoryUsage. nia. Qed.

Lemma block_eq F cs c d i j : InvC sz0 F cs -> In c cs -> In d cs -> 0 <= i < cCount c -> 0 <= j < cCount d ->
  mapIndex sz0 c i = mapIndex sz0 d j -> c = d /\ i = j.
Proof.
  intros I Hc Hd Ri Rj E. pose proof (ciSize _ _ (icC _ _ _ I c Hc)) as B. pose proof (ciSize _ _ (icC _ _ _ I d Hd)) as B'.
  pose proof (block_in c i B Ri). pose proof (block_in d j B' Rj).
  destruct (Z.eq_dec (cBase c) (cBase d)) as [X|X].
  - assert (c = d) as -> by (apply (nodup_same cBase cs); auto; apply I). split; auto. unfold mapIndex in E. nia.
  - destruct (icA _ _ _ I c d Hc Hd X); lia.
Qed.

Lemma block_apart F cs c d i j : InvC sz0 F cs -> In c cs -> In d cs -> 0 <= i < cCount c -> 0 <= j < cCount d ->
  ~ (c = d /\ i = j) -> apart (mapIndex sz0 c i) (cSize c) (mapIndex sz0 d j) (cSize d).
Proof.
  intros I Hc Hd Ri Rj N. pose proof (ciSize _ _ (icC _ _ _ I c Hc)) as B. pose proof (ciSize _ _ (icC _ _ _ I d Hd)) as B'.
  pose proof (block_in c i B Ri). pose proof (block_in d j B' Rj). unfold apart.
  destruct (Z.eq_dec (cBase c) (cBase d)) as [X|X].
  - assert (c = d) as -> by (apply (nodup_same cBase cs); auto; apply I). unfold mapIndex.
    destruct (Z.lt_trichotomy i j) as [L|[L|L]]; [left; nia|exfalso; apply N; auto|right; nia].
  - destruct (icA _ _ _ I c d Hc Hd X); lia.
Qed.

Lemma isMyPtr_area c p : isMyPtr sz0 c p (cSize c) = true -> cBase c < p /\ p < cBase c + use sz0 c.
Proof.
  unfold isMyPtr. rewrite andb_true_iff, Z.leb_le, Z.ltb_lt. intros [A B]. pose proof hdr_pos. unfold use, memoryUsage. lia.
Qed.
Lemma area_unique F cs c d p : InvC sz0 F cs -> In c cs -> In d cs -> cBase c < p -> p < cBase c + use sz0 c ->
  cBase d < p -> p < cBase d + use sz0 d -> c = d.
Proof.
  intros I Hc Hd A1 A2 B1 B2. destruct (Z.eq_dec (cBase c) (cBase d)) as [X|X].
  - apply (nodup_same cBase cs); auto; apply I.
  - destruct (icA _ _ _ I c d Hc Hd X); lia.
Qed.
End Geo.

(** ** a cluster is replaced by one of the same place and shape *)
Definition sameG (c c' : cluster) : Prop := cBase c' = cBase c /\ cSize c' = cSize c /\ cCount c' = cCount c.
Lemma sameC_G c c' : sameC c c' -> sameG c c'.
Proof. intros (A & B & C & _). repeat split; auto. Qed.

Section Replace.
Variable sz0 : Z.
Variable F : Z -> list Z.
Variable cs : list cluster.
Variable c c' : cluster.
Hypothesis Hc : In c cs.
Hypothesis Sm : sameG c c'.

Lemma use_same : use sz0 c' = use sz0 c.
Proof. destruct Sm as (_ & B & C). unfold use. rewrite B, C. auto. Qed.

Lemma InvC_put fl : InvC sz0 F cs -> CI c' fl -> InvC sz0 (set F (cBase c) fl) (putC c' cs).
Proof.
  intros I H. pose proof Sm as (B1 & B2 & B3). split.
  - unfold nodupB. rewrite putC_bases. apply I.
  - intros d Hd. apply in_putC in Hd as [[Hd N]|[-> _]].
    + rewrite set_ne by congruence. apply (icC _ _ _ I); auto.
    + rewrite B1, set_eq. auto.
  - intros d e Hd He N. apply in_putC in Hd as [[Hd Nd]|[-> _]]; apply in_putC in He as [[He Ne]|[-> _]].
    + apply (icA _ _ _ I); auto.
    + rewrite use_same, B1. apply (icA _ _ _ I); auto. congruence.
    + rewrite use_same, B1. apply (icA _ _ _ I); auto. congruence.
    + contradiction.
Qed.

Lemma areas_put : nodupB cs -> map (fun c => (cBase c, memoryUsage sz0 (cCount c) (cSize c))) (putC c' cs) =
  map (fun c => (cBase c, memoryUsage sz0 (cCount c) (cSize c))) cs.
Proof.
  intros N. unfold putC. rewrite map_map. apply map_ext_in. intros d Hd. pose proof Sm as (B1 & B2 & B3).
  destruct (Z.eqb_spec (cBase d) (cBase c')) as [E|E]; auto.
  assert (d = c) as -> by (apply (nodup_same cBase cs); auto; congruence). congruence.
Qed.
Lemma in_put' : In c' (putC c' cs).
Proof. apply in_putC. right. split; auto. destruct Sm as (-> & _). apply in_map; auto. Qed.

(** the free list of [c] is empty after as before, its successor stays *)
Lemma InvG_put G ms fl : nodupB cs -> InvG F G cs ms -> (fl = [] <-> F (cBase c) = []) -> cNext c' = cNext c ->
  InvG (set F (cBase c) fl) G (putC c' cs) ms.
Proof.
  intros N I E Nx. pose proof Sm as (B1 & B2 & B3). split; try apply I.
  - intros m Hm. destruct (igM _ _ _ _ I m Hm) as (A1 & A2 & P). split; auto. split; auto.
    apply lpath_ext with cs; auto. intros d Hd _. destruct (Z.eq_dec (cBase d) (cBase c)) as [X|X].
    + assert (d = c) as -> by (apply (nodup_same cBase cs); auto). exists c'. split; [apply in_put'|]. auto.
    + exists d. split; auto. apply in_putC. left. split; auto. congruence.
  - intros d Hd. apply in_putC in Hd as [[Hd Nd]|[-> _]]; [apply (igS _ _ _ _ I); auto|].
    rewrite B2. apply (igS _ _ _ _ I); auto.
  - intros bk b. rewrite (igF _ _ _ _ I). split.
    + intros (d & Hd & Bd & Sd & Fd). destruct (Z.eq_dec (cBase d) (cBase c)) as [X|X].
      * assert (d = c) as -> by (apply (nodup_same cBase cs); auto). exists c'. split; [apply in_put'|].
        repeat split; try congruence. rewrite <- Bd, set_eq. rewrite E, Bd. auto.
      * exists d. split; [apply in_putC; left; split; auto; congruence|]. rewrite set_ne by congruence. auto.
    + intros (d & Hd & Bd & Sd & Fd). apply in_putC in Hd as [[Hd Nd]|[-> _]].
      * exists d. rewrite set_ne in Fd by congruence. auto.
      * exists c. rewrite B1 in Bd. rewrite <- Bd, set_eq, E in Fd. repeat split; auto; congruence.
Qed.

Lemma InvL_put_add live fl i n : InvC sz0 F cs -> InvL sz0 F cs live -> 1 <= sz0 -> 1 <= n ->
  F (cBase c) = i :: fl -> cSize c = objSize2bksize n ->
  InvL sz0 (set F (cBase c) fl) (putC c' cs) ((mapIndex sz0 c i, n, cBase c) :: live).
Proof.
  intros IC I Sz Hn EF S. pose proof Sm as (B1 & B2 & B3). pose proof (icC _ _ _ IC c Hc) as H. rewrite EF in H.
  pose proof (ciNoDup _ _ H) as ND. apply NoDup_cons_iff in ND as [ND1 ND2].
  assert (Mi : forall k, mapIndex sz0 c' k = mapIndex sz0 c k) by (intros k; unfold mapIndex; rewrite B1, B2; auto).
  split.
  - cbn [map addr fst]. constructor; [|apply I]. intros X. apply in_map_iff in X as ([[p m] o] & E & Hp).
    cbn [addr fst] in E. subst p. destruct (ilB _ _ _ _ I _ _ _ Hp) as (_ & d & j & Hd & Bd & Sd & E & R & Nj).
    destruct (block_eq sz0 Sz F cs c d i j IC Hc Hd) as [<- <-]; auto.
    { apply (ciRange _ _ H). left; auto. }
    apply Nj. rewrite <- Bd, EF. left; auto.
  - intros p m o [X|X].
    + injection X as <- <- <-. split; auto. exists c', i. split; [apply in_put'|]. rewrite Mi, set_eq, B2, B3.
      repeat split; auto; try apply (ciRange _ _ H); try (left; auto; fail).
    + destruct (ilB _ _ _ _ I _ _ _ X) as (Lm & d & j & Hd & Bd & Sd & E & R & Nj). split; auto.
      destruct (Z.eq_dec (cBase d) (cBase c)) as [Y|Y].
      * assert (d = c) as -> by (apply (nodup_same cBase cs); auto; apply IC). exists c', j. split; [apply in_put'|].
        rewrite Mi, <- Bd, set_eq, B2, B3. repeat split; try lia; auto.
        intros Z. apply Nj. rewrite <- Bd, EF. right; auto.
      * exists d, j. split; [apply in_putC; left; split; auto; congruence|]. rewrite set_ne by congruence. auto.
  - intros d j Hd R Nj. cbn [map addr fst]. apply in_putC in Hd as [[Hd Nd]|[-> _]].
    + right. rewrite set_ne in Nj by congruence. apply (ilU _ _ _ _ I); auto.
    + rewrite B1, set_eq in Nj. rewrite Mi. rewrite B3 in R. destruct (Z.eq_dec j i) as [->|Nji]; [left; auto|].
      right. apply (ilU _ _ _ _ I); auto. rewrite EF. intros [X|X]; [congruence|contradiction].
Qed.

Lemma in_drop p b live : In b (drop p live) <-> In b live /\ addr b <> p.
Proof. unfold drop. rewrite filter_In, negb_true_iff, Z.eqb_neq. tauto. Qed.
Lemma drop_nodup p : forall live, NoDup (map addr live) -> NoDup (map addr (drop p live)).
Proof.
  induction live as [|b live IH]; intros N; auto. cbn [map] in N. apply NoDup_cons_iff in N as [N1 N2].
  cbn [drop filter]. destruct (negb (addr b =? p)); [|apply IH; auto]. cbn [map]. constructor; [|apply IH; auto].
  intros X. apply N1. apply in_map_iff in X as (e & E & He). apply in_drop in He as [He _]. rewrite <- E. apply in_map; auto.
Qed.

Lemma InvL_put_drop live i : InvC sz0 F cs -> InvL sz0 F cs live -> 1 <= sz0 ->
  0 <= i < cCount c -> ~ In i (F (cBase c)) ->
  InvL sz0 (set F (cBase c) (i :: F (cBase c))) (putC c' cs) (drop (mapIndex sz0 c i) live).
Proof.
  intros IC I Sz R NI. pose proof Sm as (B1 & B2 & B3).
  assert (Mi : forall k, mapIndex sz0 c' k = mapIndex sz0 c k) by (intros k; unfold mapIndex; rewrite B1, B2; auto).
  split.
  - apply drop_nodup. apply I.
  - intros p m o X. apply in_drop in X as [X Np]. cbn [addr fst] in Np.
    destruct (ilB _ _ _ _ I _ _ _ X) as (Lm & d & j & Hd & Bd & Sd & E & Rj & Nj). split; auto.
    destruct (Z.eq_dec (cBase d) (cBase c)) as [Y|Y].
    + assert (d = c) as -> by (apply (nodup_same cBase cs); auto; apply IC). exists c', j. split; [apply in_put'|].
      rewrite Mi, <- Bd, set_eq, B2, B3. repeat split; try lia; auto. rewrite Bd. intros [Z|Z]; [|contradiction].
      subst j. congruence.
    + exists d, j. split; [apply in_putC; left; split; auto; congruence|]. rewrite set_ne by congruence. auto.
  - intros d j Hd Rj Nj.
    assert (X : exists e, In e cs /\ mapIndex sz0 e j = mapIndex sz0 d j /\ 0 <= j < cCount e /\ ~ In j (F (cBase e)) /\
                mapIndex sz0 d j <> mapIndex sz0 c i).
    { apply in_putC in Hd as [[Hd Nd]|[-> _]].
      - rewrite set_ne in Nj by congruence. exists d. repeat split; try lia; auto. intros E.
        destruct (block_eq sz0 Sz F cs d c j i IC Hd Hc Rj R E) as [-> _]. congruence.
      - rewrite B1, set_eq in Nj. rewrite B3 in Rj. exists c. repeat split; try lia; auto.
        + intros Z. apply Nj. right; auto.
        + rewrite Mi. intros E. destruct (block_eq sz0 Sz F cs c c j i IC Hc Hc Rj R E) as [_ ->]. apply Nj. left; auto. }
    destruct X as (e & He & E & Re & Ne & D). rewrite <- E in *. pose proof (ilU _ _ _ _ I e j He Re Ne) as Y.
    apply in_map_iff in Y as (bl & Eb & Hb). apply in_map_iff. exists bl. split; auto. apply in_drop. split; auto. congruence.
Qed.

Lemma InvL_put_same live fl : InvC sz0 F cs -> InvL sz0 F cs live -> fl = F (cBase c) ->
  InvL sz0 (set F (cBase c) fl) (putC c' cs) live.
Proof.
  intros IC I ->. pose proof Sm as (B1 & B2 & B3).
  assert (Mi : forall k, mapIndex sz0 c' k = mapIndex sz0 c k) by (intros k; unfold mapIndex; rewrite B1, B2; auto).
  assert (SF : forall x, set F (cBase c) (F (cBase c)) x = F x).
  { intros x. unfold set. destruct (Z.eqb_spec x (cBase c)) as [->|]; auto. }
  split; [apply I| |].
  - intros p m o X. destruct (ilB _ _ _ _ I _ _ _ X) as (Lm & d & j & Hd & Bd & Sd & E & Rj & Nj). split; auto. rewrite SF.
    destruct (Z.eq_dec (cBase d) (cBase c)) as [Y|Y].
    + assert (d = c) as -> by (apply (nodup_same cBase cs); auto; apply IC). exists c', j. split; [apply in_put'|].
      rewrite Mi, B2, B3. repeat split; try lia; auto; congruence.
    + exists d, j. split; [apply in_putC; left; split; auto; congruence|]. auto.
  - intros d j Hd Rj Nj. rewrite SF in Nj. apply in_putC in Hd as [[Hd Nd]|[-> _]].
    + apply (ilU _ _ _ _ I); auto.
    + rewrite Mi. apply (ilU _ _ _ _ I); auto; congruence.
Qed.
End Replace.
