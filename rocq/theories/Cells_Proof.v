(** Lemmas about the cells *)
From Verif Require Import Common EvLog_Spec Cells_Spec EvLog_Model EvLog_Proof Cells_Model.
From Coq Require Import ZifyBool.
Open Scope Z_scope.

Lemma un_le32 : forall v, 0 <= v < 2 ^ 32 ->
  un32 (v mod 65536 mod 256) (v mod 65536 / 256 mod 256) (v / 65536 mod 65536 mod 256) (v / 65536 mod 65536 / 256 mod 256) = v.
Proof.
  intros v H. unfold un32. rewrite !un_le by (apply Z.mod_pos_bound; lia).
  rewrite (Z.mod_small (v / 65536)) by (split; [apply Z.div_pos; lia|apply Z.div_lt_upper_bound; lia]).
  pose proof (Z.div_mod v 65536). lia.
Qed.
(** a frame of the file: capacity, header, data, bytes that are not used *)
Record frame := mkFr { cap : Z; fu : cupd; slack : list Z }.
Definition gran (u : cupd) : Z := (len (udata u) + 7) / 8.
Definition fhdr (f : frame) : stframe := mkSF (cap f) (utime (fu f)) (ucell (fu f)) (utype (fu f)) (gran (fu f)).
Definition enc (f : frame) : list Z := put_stframe (fhdr f) ++ zpad (udata (fu f)) ++ slack f.
Definition fok (f : frame) : Prop := fits (fu f) /\ cap f = len (enc f) /\ cap f < 2 ^ 32.
Definition encs (l : list frame) : list Z := flat_map enc l.
Lemma put_stframe_len : forall h, length (put_stframe h) = 16%nat. Proof. reflexivity. Qed.
Lemma gran_bounds : forall u, fits u -> 0 <= gran u < 65536 /\ 0 <= gran u * 8 - len (udata u) < 8.
Proof. intros u (_ & _ & _ & L & _). unfold gran. pose proof (len_nonneg _ (udata u)). pose proof (Z.div_mod (len (udata u) + 7) 8). pose proof (Z.mod_pos_bound (len (udata u) + 7) 8). lia. Qed.
Lemma zpad_eq : forall u, fits u -> zpad (udata u) = udata u ++ repeat 0 (Z.to_nat (gran u * 8 - len (udata u))).
Proof.
  intros u F. unfold zpad. f_equal. f_equal. f_equal. pose proof (gran_bounds u F). symmetry. apply (Z.mod_unique_pos _ _ (- gran u)); lia.
Qed.
Lemma zpad_len : forall u, fits u -> len (zpad (udata u)) = gran u * 8.
Proof. intros u F. rewrite zpad_eq, len_app by assumption. pose proof (gran_bounds u F). unfold len at 2. rewrite repeat_length. lia. Qed.
Lemma get_frame : forall A f B, fok f -> get_stframe (A ++ enc f ++ B) (len A) = Some (fhdr f).
Proof.
  intros A f B ((FC & FT & FB & FL & FM) & FE & FCap). unfold get_stframe, len. rewrite Nat2Z.id, skipn_app, skipn_all, Nat.sub_diag. cbn [app skipn].
  unfold enc, put_stframe. cbn [le32 le16 app]. unfold fhdr at 1 2 3 4 5 6 7 8. cbn [frameLen ftimestamp fcellId frecordType flength].
  assert (C0 : 0 <= cap f) by (rewrite FE; apply len_nonneg).
  pose proof (gran_bounds (fu f) (conj FC (conj FT (conj FB (conj FL FM))))).
  unfold fhdr. cbn [frameLen ftimestamp fcellId frecordType flength]. rewrite !un_le32 by lia. rewrite !un_le by lia. reflexivity.
Qed.
Lemma enc_pos : forall f, fok f -> 16 <= cap f.
Proof. intros f (_ & -> & _). unfold enc. rewrite len_app. assert (L : len (put_stframe (fhdr f)) = 16) by reflexivity. rewrite L. pose proof (len_nonneg _ (zpad (udata (fu f)) ++ slack f)). lia. Qed.

(** *** The table *)
Fixpoint tab (l : list frame) (pos : Z) (m : cmap) : outcome cmap :=
  match l with
  | [] => Ok m
  | f :: r => let! m1 := expandCellMap m (ucell (fu f)) in tab r (pos + cap f) (upd m1 (Z.to_nat (ucell (fu f))) (pos, cap f))
  end.
Fixpoint caps (l : list frame) : Z := match l with [] => 0 | f :: r => cap f + caps r end.
Lemma caps_app : forall a b, caps (a ++ b) = caps a + caps b.
Proof. induction a; intros; cbn; [reflexivity|]. rewrite IHa. lia. Qed.
Lemma caps_len : forall l, Forall fok l -> caps l = len (encs l).
Proof. induction 1 as [|f l (_ & F & _) H IH]; [reflexivity|]. unfold encs in *. cbn [flat_map caps]. rewrite len_app, IH, F. reflexivity. Qed.
Lemma tab_app : forall a b pos m, tab (a ++ b) pos m = let! m1 := tab a pos m in tab b (pos + caps a) m1.
Proof.
  induction a as [|f a IH]; intros b pos m; cbn [app tab caps obind]. { rewrite Z.add_0_r. reflexivity. }
  destruct (expandCellMap m (ucell (fu f))); cbn [obind]; try reflexivity. rewrite IH. rewrite Z.add_assoc. reflexivity.
Qed.
Lemma scan_tab : forall l A m fuel, Forall fok l -> (length l <= fuel)%nat -> scan fuel (A ++ encs l) (len A) m = tab l (len A) m.
Proof.
  induction l as [|f l IH]; intros A m fuel F L.
  - unfold encs. cbn [flat_map]. rewrite app_nil_r. destruct fuel; cbn [scan tab]; rewrite Z.ltb_irrefl; reflexivity.
  - inversion F as [|? ? F1 F2]; subst. destruct fuel as [|fuel]; [cbn in L; lia|]. cbn [scan tab]. unfold encs in *. cbn [flat_map].
    pose proof (enc_pos f F1). assert (FC : cap f = len (enc f)) by apply F1.
    replace (len A <? len (A ++ enc f ++ flat_map enc l)) with true by (rewrite !len_app; pose proof (len_nonneg _ (flat_map enc l)); lia).
    rewrite get_frame by assumption. cbn [fcellId fhdr frameLen].
    destruct (expandCellMap m (ucell (fu f))); cbn [obind]; try reflexivity.
    rewrite app_assoc. replace (len A + cap f) with (len (A ++ enc f)) by (rewrite len_app; lia). apply IH; auto. cbn in L. lia.
Qed.
Fixpoint lookup (l : list frame) (pos : Z) (c : Z) : option (Z * Z) :=
  match l with
  | [] => None
  | f :: r => match lookup r (pos + cap f) c with Some x => Some x | None => if ucell (fu f) =? c then Some (pos, cap f) else None end
  end.
Lemma nth_repeat0 : forall n i, nth i (repeat (0, 0) n) (0, 0) = (0, 0).
Proof. induction n; intros [|i]; cbn; auto. Qed.
Lemma expand_nth : forall m c m1 i, expandCellMap m c = Ok m1 -> nth i m1 (0, 0) = nth i m (0, 0).
Proof.
  intros m c m1 i H. unfold expandCellMap in H. destruct (len m <=? c); [|congruence]. destruct (len m + 10000 <? c); [discriminate|]. injection H as <-.
  destruct (lt_dec i (length m)). { apply app_nth1. assumption. } rewrite app_nth2 by lia. rewrite nth_repeat0, nth_overflow by lia. reflexivity.
Qed.
Lemma expand_len : forall m c m1, 0 <= c -> expandCellMap m c = Ok m1 -> c < len m1 /\ len m <= len m1 /\ (c < len m -> m1 = m).
Proof.
  intros m c m1 P H. unfold expandCellMap in H. destruct (len m <=? c) eqn:E; [|injection H as <-; repeat split; auto; lia]. destruct (len m + 10000 <? c); [discriminate|]. injection H as <-.
  rewrite len_app. unfold len in *. rewrite repeat_length. split; [lia|]. split; [lia|]. intros. exfalso. lia.
Qed.
Lemma tab_nth : forall l pos m0 m c, Forall fok l -> 0 <= c -> tab l pos m0 = Ok m ->
  nth (Z.to_nat c) m (0, 0) = match lookup l pos c with Some x => x | None => nth (Z.to_nat c) m0 (0, 0) end.
Proof.
  induction l as [|f l IH]; intros pos m0 m c F C H; cbn [tab lookup] in *; [congruence|]. inversion F as [|? ? F1 F2]; subst.
  destruct (expandCellMap m0 (ucell (fu f))) as [m1| | |] eqn:E; try discriminate H. cbn [obind] in H. rewrite (IH _ _ _ _ F2 C H).
  destruct (lookup l (pos + cap f) c); [reflexivity|]. destruct F1 as ((FC & _) & _).
  assert (NC : 0 <= ucell (fu f)) by lia. destruct (expand_len _ _ _ NC E) as (L & _). destruct (Z.eqb_spec (ucell (fu f)) c) as [EQ|Q].
  - rewrite EQ in *. rewrite nth_upd_eq by (unfold len in L; lia). reflexivity.
  - rewrite nth_upd_ne by lia. eapply expand_nth. exact E.
Qed.
Lemma tab_len : forall l pos m0 m, Forall fok l -> tab l pos m0 = Ok m -> len m0 <= len m /\ forall f, In f l -> ucell (fu f) < len m.
Proof.
  induction l as [|f l IH]; intros pos m0 m F H; cbn [tab] in *. { injection H as <-. split; [lia|intros ? []]. } inversion F as [|? ? F1 F2]; subst.
  destruct (expandCellMap m0 (ucell (fu f))) as [m1| | |] eqn:E; try discriminate H. cbn [obind] in H. destruct F1 as ((FC & _) & _).
  assert (NC : 0 <= ucell (fu f)) by lia. destruct (expand_len _ _ _ NC E) as (L & L2 & _). destruct (IH _ _ _ F2 H) as (L3 & L4). unfold len in L3 at 1. rewrite upd_length in L3. fold (len m1) in L3.
  split; [lia|]. intros g [<-|G]; [lia|auto].
Qed.
Lemma lookup_split : forall l pos c o k, lookup l pos c = Some (o, k) ->
  exists a f b, l = a ++ f :: b /\ o = pos + caps a /\ k = cap f /\ ucell (fu f) = c /\ forall g, In g b -> ucell (fu g) <> c.
Proof.
  assert (N : forall l pos c, lookup l pos c = None -> forall g, In g l -> ucell (fu g) <> c).
  { induction l as [|f l IH]; intros pos c H g; cbn in *; [tauto|]. destruct (lookup l (pos + cap f) c) eqn:E; [discriminate|].
    destruct (Z.eqb_spec (ucell (fu f)) c); [discriminate|]. intros [<-|G]; [assumption|eauto]. }
  induction l as [|f l IH]; intros pos c o k H; cbn in *; [discriminate|]. destruct (lookup l (pos + cap f) c) as [[o1 k1]|] eqn:E.
  - injection H as -> ->. destruct (IH _ _ _ _ E) as (a & g & b & -> & -> & -> & Q1 & Q2). exists (f :: a), g, b. cbn [caps app]. repeat split; auto. lia.
  - destruct (Z.eqb_spec (ucell (fu f)) c) as [Q|Q]; [|discriminate]. injection H as <- <-. exists [], f, l. cbn [caps app]. repeat split; auto; [lia|eauto].
Qed.
Lemma lookup_none : forall l pos c, lookup l pos c = None <-> forall g, In g l -> ucell (fu g) <> c.
Proof.
  induction l as [|f l IH]; intros pos c; cbn; [split; [intros _ ? []|auto]|].
  specialize (IH (pos + cap f) c). destruct (lookup l (pos + cap f) c).
  - split; [discriminate|]. intros H. exfalso. assert (Some p = None) by (apply IH; auto). discriminate.
  - destruct (Z.eqb_spec (ucell (fu f)) c) as [Q|Q].
    + split; [discriminate|]. intros H. exfalso. apply (H f); auto.
    + split; [|auto]. intros _ g [<-|G]; [assumption|]. apply IH; auto.
Qed.
Lemma lookup_mid : forall a f b pos c, ucell (fu f) = c -> (forall g, In g b -> ucell (fu g) <> c) -> lookup (a ++ f :: b) pos c = Some (pos + caps a, cap f).
Proof.
  induction a as [|g a IH]; intros f b pos c E N; cbn [app lookup caps].
  - apply (lookup_none b (pos + cap f) c) in N. rewrite N. rewrite (proj2 (Z.eqb_eq _ _) E). rewrite Z.add_0_r. reflexivity.
  - rewrite IH by assumption. rewrite Z.add_assoc. reflexivity.
Qed.
Lemma tab_same : forall a f g b pos m, cap f = cap g -> ucell (fu f) = ucell (fu g) -> tab (a ++ f :: b) pos m = tab (a ++ g :: b) pos m.
Proof. intros a f g b pos m H1 H2. rewrite !tab_app. destruct (tab a pos m); cbn [obind]; try reflexivity. cbn [tab]. rewrite H1, H2. reflexivity. Qed.

(** *** The state *)
Record cinv (h : list cupd) (s : cst) (l : list frame) : Prop := mkCI {
  ci_ok : Forall fok l;
  ci_file : cfile s = encs l;
  ci_tab : tab l 0 [] = Ok (cellMap s);
  ci_last : forall c, latest (map fu l) c = latest h c;
  ci_in : forall f, In f l -> In (fu f) h;
  ci_ne : h <> [] -> l <> [] }.
Lemma latest_app : forall h u c, latest (h ++ [u]) c = if ucell u =? c then Some u else latest h c.
Proof. induction h as [|v h IH]; intros u c; cbn; [destruct (ucell u =? c); reflexivity|]. rewrite IH. destruct (ucell u =? c); [reflexivity|]. destruct (latest h c); reflexivity. Qed.
Lemma latest_cell : forall h c u, latest h c = Some u -> ucell u = c.
Proof. induction h as [|v h IH]; intros c u; cbn; [discriminate|]. destruct (latest h c) eqn:E; [intros [= <-]; eauto|]. destruct (Z.eqb_spec (ucell v) c); [|discriminate]. intros [= <-]. assumption. Qed.
Lemma latest_app2 : forall a b c, latest (a ++ b) c = match latest b c with Some v => Some v | None => latest a c end.
Proof. induction a as [|v a IH]; intros b c; cbn; [destruct (latest b c); reflexivity|]. rewrite IH. destruct (latest b c); reflexivity. Qed.
Lemma latest_none : forall b c, (forall g, In g b -> ucell g <> c) -> latest b c = None.
Proof. induction b as [|v b IH]; intros c H; cbn; [reflexivity|]. rewrite IH by (intros; apply H; cbn; auto). destruct (Z.eqb_spec (ucell v) c) as [Q|Q]; [|reflexivity]. exfalso. apply (H v); cbn; auto. Qed.
Lemma latest_split : forall l c u, latest (map fu l) c = Some u -> exists a f b, l = a ++ f :: b /\ fu f = u /\ forall g, In g b -> ucell (fu g) <> c.
Proof.
  induction l as [|f l IH]; intros c u H; cbn in H; [discriminate|]. destruct (latest (map fu l) c) as [v|] eqn:E.
  - injection H as ->. destruct (IH _ _ E) as (a & g & b & -> & Q1 & Q2). exists (f :: a), g, b. auto.
  - destruct (Z.eqb_spec (ucell (fu f)) c) as [Q|Q]; [|discriminate]. injection H as <-. exists [], f, l. repeat split; auto.
    clear - E. induction l as [|g l IH]; intros x []; cbn in E; destruct (latest (map fu l) c); try discriminate; destruct (Z.eqb_spec (ucell (fu g)) c); try discriminate; [subst x; assumption|auto].
Qed.
Lemma encs_app : forall a b, encs (a ++ b) = encs a ++ encs b.
Proof. intros. unfold encs. apply flat_map_app. Qed.
Lemma update_inv : forall h s l u s' d, cinv h s l -> fits u -> updateCell s u = Ok (s', d) -> exists l', cinv (h ++ [u]) s' l'.
Proof.
  intros h s l u s' d [CO CF CT CL CI CN] FU E. unfold updateCell in E. pose proof FU as (FC & FT & FB & FL & FM).
  destruct (expandCellMap (cellMap s) (ucell u)) as [m| | |] eqn:EM; try discriminate E. cbn [obind] in E.
  assert (NC0 : 0 <= ucell u) by lia. rewrite (expand_nth _ _ _ _ EM) in E. rewrite (tab_nth _ _ _ _ (ucell u) CO NC0 CT) in E.
  replace (nth (Z.to_nat (ucell u)) [] (0, 0)) with (0, 0) in E by (destruct (Z.to_nat (ucell u)); reflexivity).
  fold blockSize in E. change ((len (udata u) + 7) / blockSize) with (gran u) in E. unfold blockSize in E.
  pose proof (gran_bounds u FU) as GB. pose proof (zpad_len u FU) as ZL. rewrite <- (zpad_eq u FU) in E.
  set (need := 16 + gran u * 8) in *.
  assert (PH : forall h, len (put_stframe h) = 16) by reflexivity.
  assert (NC : 0 <= ucell u) by lia. destruct (expand_len _ _ _ NC EM) as (LM & _ & LS).
  destruct (snd (match lookup l 0 (ucell u) with Some x => x | None => (0, 0) end) <? need) eqn:EN.
  - (* a new frame at the end *)
    apply (f_equal (fun r => match r with Ok p => fst p | _ => s end)) in E. cbn [fst snd] in E. subst s'.
    set (f := mkFr need u []). exists (l ++ [f]).
    assert (EF : put_stframe (mkSF need (utime u) (ucell u) (utype u) (gran u)) ++ zpad (udata u) = enc f) by (unfold enc; cbn [slack f fu]; rewrite app_nil_r; reflexivity).
    assert (OF : fok f). { split; [exact FU|]. rewrite <- EF. cbn [cap f]. rewrite len_app, PH, ZL. split; [reflexivity|]. unfold need. lia. }
    split; cbn [cfile cellMap].
    + apply Forall_app. split; [assumption|constructor; [assumption|constructor]].
    + unfold overwrite. rewrite EF. unfold len at 1 2. rewrite Nat2Z.id, firstn_all, skipn_all2 by lia. rewrite app_nil_r, CF, encs_app. unfold encs at 3. cbn [flat_map]. rewrite app_nil_r. reflexivity.
    + rewrite tab_app, CT. cbn [obind tab f fu cap]. rewrite EM. cbn [obind]. rewrite Z.add_0_l, caps_len, CF by assumption. reflexivity.
    + intros c. rewrite map_app. cbn [map f fu]. rewrite !latest_app, CL. reflexivity.
    + intros x Hx. apply in_or_app. apply in_app_or in Hx as [Hx|[<-|[]]]; cbn; auto.
    + intros _ Q. destruct l; discriminate Q.
  - (* in place *)
    destruct (lookup l 0 (ucell u)) as [[o k]|] eqn:EL; [|cbn [snd] in EN; lia]. cbn [snd fst] in *.
    destruct (lookup_split _ _ _ _ _ EL) as (a & f & b & -> & -> & -> & EC & EB).
    assert (OF : fok f) by (rewrite Forall_forall in CO; apply CO; apply in_or_app; right; left; reflexivity).
    set (g := mkFr (cap f) u (skipn (Z.to_nat need) (enc f))). exists (a ++ g :: b).
    apply (f_equal (fun r => match r with Ok p => fst p | _ => s end)) in E. cbn [fst snd] in E. subst s'.
    assert (CE : cap f = len (enc f)) by apply OF.
    assert (OG : fok g).
    { split; [exact FU|]. split; [|apply OF]. unfold enc. cbn [cap slack g fu]. rewrite !len_app, PH, ZL. unfold len at 1. rewrite skipn_length. unfold len in CE. lia. }
    pose proof CO as CAB. apply Forall_app in CO as (CA & CB). inversion CB as [|? ? _ CB2]; subst.
    split; cbn [cfile cellMap].
    + apply Forall_app. split; [assumption|]. constructor; assumption.
    + rewrite CF, !encs_app. change (encs (f :: b)) with (enc f ++ encs b). change (encs (g :: b)) with (enc g ++ encs b).
      rewrite Z.add_0_l, caps_len by assumption. unfold overwrite. unfold len at 1 2. rewrite Nat2Z.id.
      rewrite firstn_app, firstn_all, Nat.sub_diag, firstn_O, app_nil_r. f_equal.
      assert (EH : enc g = (put_stframe (mkSF (cap f) (utime u) (ucell u) (utype u) (gran u)) ++ zpad (udata u)) ++ skipn (Z.to_nat need) (enc f)) by (unfold enc at 1; rewrite <- app_assoc; reflexivity).
      rewrite EH, <- app_assoc. rewrite <- !app_assoc. f_equal. f_equal.
      assert (LN : (length (put_stframe (mkSF (cap f) (utime u) (ucell u) (utype u) (gran u)) ++ zpad (udata u)) = Z.to_nat need)%nat).
      { pose proof (PH (mkSF (cap f) (utime u) (ucell u) (utype u) (gran u))). unfold len in *. rewrite app_length. lia. }
      rewrite LN. rewrite !skipn_app. rewrite (skipn_all2 (encs a)) by lia. cbn [app].
      replace (length (encs a) + Z.to_nat need - length (encs a))%nat with (Z.to_nat need) by lia. f_equal.
      replace (Z.to_nat need - length (enc f))%nat with O by (unfold len in CE; lia). reflexivity.
    + rewrite (tab_same a g f b 0 []) by (auto; cbn; congruence). rewrite CT. f_equal.
      assert (IL : ucell u < len (cellMap s)). { destruct (tab_len _ _ _ _ CAB CT) as (_ & L2). rewrite <- EC. apply L2. apply in_or_app. right. left. reflexivity. }
      rewrite (LS IL) in *. symmetry. apply nth_ext with (d := (0, 0)) (d' := (0, 0)); [apply upd_length|]. intros i Hi. rewrite upd_length in Hi.
      destruct (Nat.eq_dec i (Z.to_nat (ucell u))) as [->|Q]; [|rewrite nth_upd_ne by auto; reflexivity].
      rewrite nth_upd_eq by assumption. rewrite (tab_nth _ _ _ _ (ucell u) CAB NC0 CT), EL. reflexivity.
    + intros c. specialize (CL c). rewrite map_app in *. cbn [map] in *. rewrite latest_app, latest_app2 in *. cbn [latest g fu] in *. rewrite EC in CL.
      destruct (Z.eqb_spec (ucell u) c) as [EQ|Q].
      * rewrite latest_none; [reflexivity|]. intros x Hx. apply in_map_iff in Hx as (y & <- & Hy). rewrite <- EQ. auto.
      * rewrite <- CL. reflexivity.
    + intros x Hx. apply in_or_app. apply in_app_or in Hx as [Hx|[<-|Hx]]; cbn; auto; left; apply CI; apply in_or_app; cbn; auto.
    + intros _ Q. destruct a; discriminate Q.
Qed.

Lemma cinv_empty : cinv [] cempty [].
Proof. split; auto. Qed.
Lemma updates_inv : forall h2 h1 s l s', cinv h1 s l -> Forall fits h2 -> updates s h2 = Ok s' -> exists l', cinv (h1 ++ h2) s' l'.
Proof.
  induction h2 as [|u h2 IH]; intros h1 s l s' I F E. { cbn in E. injection E as <-. rewrite app_nil_r. eauto. }
  inversion F as [|? ? F1 F2]; subst. cbn [updates] in E. destruct (updateCell s u) as [[s1 d]| | |] eqn:EU; try discriminate E. cbn [obind fst] in E.
  destruct (update_inv _ _ _ _ _ _ I F1 EU) as (l1 & I1). destruct (IH _ _ _ _ I1 F2 E) as (l2 & I2). rewrite <- app_assoc in I2. eauto.
Qed.
Lemma load_frame : forall a f b, fok f -> Forall fok a -> exists x, loadStEvent (encs (a ++ f :: b)) (caps a) = Ok x /\ shows_cell (fu f) x.
Proof.
  intros a f b F FA. rewrite encs_app. change (encs (f :: b)) with (enc f ++ encs b). rewrite caps_len by assumption.
  unfold loadStEvent. rewrite get_frame by assumption. eexists. split; [reflexivity|]. cbn [shows_cell fhdr fcellId ftimestamp frecordType flength]. repeat split.
  pose proof (proj1 F) as FU. pose proof (gran_bounds _ FU). pose proof (zpad_len _ FU) as ZL. unfold blockSize.
  pose proof (len_nonneg _ (encs a)). replace (Z.to_nat (len (encs a) + 16)) with (length (encs a) + 16)%nat by (unfold len; lia).
  rewrite skipn_app, (skipn_all2 (encs a)) by lia. cbn [app]. replace (length (encs a) + 16 - length (encs a))%nat with 16%nat by lia.
  unfold enc at 1. rewrite <- !app_assoc. rewrite skipn_app, (skipn_all2 (put_stframe (fhdr f))) by (rewrite put_stframe_len; lia). rewrite put_stframe_len. cbn [app Nat.sub skipn].
  replace (Z.to_nat (gran (fu f) * 8)) with (length (zpad (udata (fu f)))) by (unfold len in ZL; lia).
  rewrite firstn_app, firstn_all, Nat.sub_diag, firstn_O, app_nil_r. reflexivity.
Qed.
Lemma loadAll_ok : forall file m, (forall p, In p m -> exists x, loadStEvent file (fst p) = Ok x) ->
  exists ds, loadAll file m = Ok ds /\ length ds = length m /\ forall i p, nth_error m i = Some p -> exists x, nth_error ds i = Some x /\ loadStEvent file (fst p) = Ok x.
Proof.
  induction m as [|p m IH]; intros H; cbn [loadAll]. { exists []. repeat split; auto. intros [|i] p; discriminate. }
  destruct (H p (or_introl eq_refl)) as (x & EX). rewrite EX. cbn [obind]. destruct IH as (ds & -> & L & N); [intros q Q; apply H; right; exact Q|]. cbn [obind].
  exists (x :: ds). split; [reflexivity|]. split; [cbn; lia|]. intros [|i] q Q; cbn in *; [|eauto]. injection Q as <-. eauto.
Qed.
(** each entry of the table leads to a frame *)
Lemma entry_load : forall h s l i, cinv h s l -> (i < length (cellMap s))%nat ->
  exists a f b, l = a ++ f :: b /\ fst (nth i (cellMap s) (0, 0)) = caps a /\ (forall u, latest h (Z.of_nat i) = Some u -> fu f = u) /\ (latest h (Z.of_nat i) = None -> a = []).
Proof.
  intros h s l i [CO CF CT CL CI CN] L. pose proof (tab_nth _ _ _ _ (Z.of_nat i) CO ltac:(lia) CT) as T. rewrite Nat2Z.id in T.
  replace (nth i [] (0, 0)) with (0, 0) in T by (destruct i; reflexivity). rewrite T.
  destruct (latest h (Z.of_nat i)) as [u|] eqn:EU.
  - rewrite <- CL in EU. destruct (latest_split _ _ _ EU) as (a & f & b & -> & EF & N). rewrite lookup_mid; [|rewrite EF; eapply latest_cell; exact EU|exact N].
    exists a, f, b. cbn [fst]. repeat split; auto; [intros v [= <-]; assumption|discriminate].
  - assert (LN : lookup l 0 (Z.of_nat i) = None).
    { destruct (lookup l 0 (Z.of_nat i)) as [[o k]|] eqn:E; [|reflexivity]. exfalso. destruct (lookup_split _ _ _ _ _ E) as (a & f & b & -> & _ & _ & EC & N).
      rewrite <- CL in EU. rewrite map_app in EU. cbn [map] in EU. rewrite latest_app2 in EU. cbn [latest] in EU. rewrite (proj2 (Z.eqb_eq _ _) EC) in EU.
      destruct (latest (map fu b) (Z.of_nat i)); discriminate EU. }
    rewrite LN. cbn [fst]. destruct l as [|f l].
    + cbn in CT. injection CT as CT. rewrite <- CT in L. cbn in L. lia.
    + exists [], f, l. repeat split; auto. discriminate.
Qed.
