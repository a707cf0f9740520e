(** Names of members: their order, and the object that is built from members. *)
From Verif Require Import Common Conv_Model Utf_Model Utf_Spec Json_Spec Json_Model Json_Proof.
Local Open Scope N_scope.

(** ** The order of names *)
Lemma schar_sbyte c : schar c = sbyte c.
Proof. unfold schar, sbyte. destruct (N.leb_spec 128 c), (N.ltb_spec c 128); lia. Qed.
Lemma sbyte_inj x y : x < 256 -> y < 256 -> sbyte x = sbyte y -> x = y.
Proof. unfold sbyte. destruct (N.ltb_spec x 128), (N.ltb_spec y 128); lia. Qed.
Lemma bytes_cons x a : bytes_ok (x :: a) -> x < 256 /\ bytes_ok a.
Proof. intros H. apply Forall_cons_iff in H. exact H. Qed.

Lemma klt_irrefl a : ~ klt a a.
Proof. induction a as [|x a IH]; cbn; [tauto|]. intros [H|[_ H]]; [lia|tauto]. Qed.
Lemma klt_trans a b c : klt a b -> klt b c -> klt a c.
Proof.
  revert b c. induction a as [|x a IH]; intros [|y b] [|z c]; cbn; try tauto.
  intros [H1|[-> H1]] [H2|[-> H2]]; [left; lia|left; lia|left; lia|right; eauto].
Qed.
Lemma cmpShort_ok : forall a b, bytes_ok a -> bytes_ok b -> (length a <= length b)%nat ->
  match cmpShort a b with Eq => a = b | Lt => klt a b | Gt => klt b a end.
Proof.
  assert (L : forall a b, bytes_ok a -> bytes_ok b -> (length a <= length b)%nat ->
    match cmpLoop a b with Eq => firstn (length a) b = a | Lt => klt a b | Gt => klt b a end).
  { induction a as [|x a IH]; intros [|y b] Ha Hb Hl; try reflexivity; [cbn in Hl; lia|].
    apply bytes_cons in Ha as [Hx Ha]. apply bytes_cons in Hb as [Hy Hb]. cbn [cmpLoop].
    destruct (N.eqb_spec x y) as [->|N].
    - specialize (IH b Ha Hb ltac:(cbn in Hl; lia)). destruct (cmpLoop a b); cbn [klt length firstn]; [f_equal; exact IH|tauto..].
    - rewrite !schar_sbyte. destruct (Z.ltb_spec (sbyte x) (sbyte y)); cbn [klt]; [tauto|left].
      destruct (Z.eq_dec (sbyte x) (sbyte y)) as [E|]; [apply sbyte_inj in E; auto; lia|lia]. }
  intros a b Ha Hb Hl. specialize (L a b Ha Hb Hl). unfold cmpShort. destruct a as [|x a].
  - destruct b; [reflexivity|cbn; exact I].
  - destruct (cmpLoop (x :: a) b); [|exact L..].
    destruct (Nat.ltb_spec (length (x :: a)) (length b)) as [H|H].
    + rewrite <- (firstn_skipn (length (x :: a)) b), L.
      assert (Q : skipn (length (x :: a)) b <> []) by (intros E; apply (f_equal (@length N)) in E; rewrite skipn_length in E; cbn [length] in *; lia).
      destruct (skipn (length (x :: a)) b) as [|z r]; [congruence|]. clear.
      induction (x :: a) as [|u v IH]; [exact I|]. cbn. right. split; [reflexivity|exact IH].
    + rewrite firstn_all2 in L by lia. congruence.
Qed.
Lemma compareKeys_ok a b : bytes_ok a -> bytes_ok b ->
  match compareKeys a b with Eq => a = b | Lt => klt a b | Gt => klt b a end.
Proof.
  intros Ha Hb. unfold compareKeys. destruct (Nat.ltb_spec (length b) (length a)) as [H|H].
  - pose proof (cmpShort_ok b a Hb Ha ltac:(lia)) as Q. destruct (cmpShort b a); cbn [CompOpp]; congruence.
  - exact (cmpShort_ok a b Ha Hb H).
Qed.

(** ** Building an object *)
Definition bkeys (m : list (list N * json)) : Prop := Forall (fun kv => bytes_ok (fst kv)) m.
Definition above (k : list N) (m : list (list N * json)) : Prop := Forall (fun kv => klt k (fst kv)) m.
Lemma increasing_cons k t : increasing (k :: t) -> increasing t /\ Forall (klt k) t.
Proof.
  revert k. induction t as [|k' t IH]; intros k [H1 H2]; [split; [exact I|constructor]|].
  split; [exact H2|]. constructor; [exact H1|]. destruct (IH k' H2) as [_ H3].
  eapply Forall_impl; [|exact H3]. intros x. apply klt_trans. exact H1.
Qed.
Lemma cons_increasing k t : increasing t -> Forall (klt k) t -> increasing (k :: t).
Proof. intros H1 H2. split; [|exact H1]. destruct t; [exact I|]. apply Forall_cons_iff in H2. tauto. Qed.
Lemma find_above k m : Forall (klt k) (map fst m) -> find k m = None.
Proof.
  induction m as [|[k' v] m IH]; intros H; [reflexivity|]. cbn in H. apply Forall_cons_iff in H as [H1 H2]. cbn [find].
  destruct (list_eq_dec N.eq_dec k k') as [<-|]; [destruct (klt_irrefl _ H1)|auto].
Qed.
Lemma insert_keys (Q : list N -> Prop) k v m : Q k -> Forall Q (map fst m) -> Forall Q (map fst (insertField k v m)).
Proof.
  intros Hk. induction m as [|[k' v'] m IH]; intros H; cbn [insertField map fst] in *; [repeat constructor; exact Hk|].
  apply Forall_cons_iff in H as [H1 H2].
  destruct (compareKeys k k'); cbn [map fst]; repeat constructor; auto.
Qed.
Lemma insert_increasing k v m : bytes_ok k -> bkeys m -> increasing (map fst m) -> increasing (map fst (insertField k v m)).
Proof.
  intros Hk. induction m as [|[k' v'] m IH]; intros Hb Hi; [repeat split|].
  apply Forall_cons_iff in Hb as [Hb1 Hb2]. cbn [map fst] in *.
  pose proof (increasing_cons _ _ Hi) as [Hi1 Hi2]. cbn [insertField].
  pose proof (compareKeys_ok k k' Hk Hb1) as C. destruct (compareKeys k k'); cbn [map fst].
  - exact Hi.
  - apply cons_increasing; [exact Hi|]. constructor; [exact C|].
    eapply Forall_impl; [|exact Hi2]. intros x. apply klt_trans. exact C.
  - apply cons_increasing; [apply IH; assumption|]. apply insert_keys; assumption.
Qed.
Lemma insert_find k v m k' : bytes_ok k -> bkeys m -> increasing (map fst m) ->
  find k' (insertField k v m) =
    match find k' m with Some x => Some x | None => if list_eq_dec N.eq_dec k' k then Some v else None end.
Proof.
  intros Hk. induction m as [|[k1 v1] m IH]; intros Hb Hi; [reflexivity|].
  apply Forall_cons_iff in Hb as [Hb1 Hb2]. cbn [map fst] in *. pose proof (increasing_cons _ _ Hi) as [Hi1 Hi2].
  cbn [insertField]. pose proof (compareKeys_ok k k1 Hk Hb1) as C. destruct (compareKeys k k1).
  - subst k1. cbn [find]. destruct (list_eq_dec N.eq_dec k' k); [reflexivity|]. destruct (find k' m); reflexivity.
  - cbn [find]. destruct (list_eq_dec N.eq_dec k' k) as [->|].
    + destruct (list_eq_dec N.eq_dec k k1) as [->|]; [destruct (klt_irrefl _ C)|].
      rewrite find_above; [reflexivity|]. eapply Forall_impl; [|exact Hi2]. intros x. apply klt_trans. exact C.
    + destruct (list_eq_dec N.eq_dec k' k1); [reflexivity|]. destruct (find k' m); reflexivity.
  - cbn [find]. destruct (list_eq_dec N.eq_dec k' k1); [reflexivity|]. apply IH; assumption.
Qed.
Lemma insert_Forall (Q : list N * json -> Prop) k v m : Q (k, v) -> Forall Q m -> Forall Q (insertField k v m).
Proof.
  intros Hk. induction m as [|[k' v'] m IH]; intros H; cbn [insertField]; [repeat constructor; exact Hk|].
  apply Forall_cons_iff in H as [H1 H2].
  destruct (compareKeys k k'); repeat constructor; auto.
Qed.
Lemma insert_last k v m : bytes_ok k -> bkeys m -> Forall (fun kv => klt (fst kv) k) m -> insertField k v m = m ++ [(k, v)].
Proof.
  intros Hk. induction m as [|[k' v'] m IH]; intros Hb H; [reflexivity|].
  apply Forall_cons_iff in Hb as [Hb1 Hb2]. apply Forall_cons_iff in H as [H1 H2]. cbn [insertField app fst] in *.
  pose proof (compareKeys_ok k k' Hk Hb1) as C. destruct (compareKeys k k').
  - subst. destruct (klt_irrefl _ H1).
  - destruct (klt_irrefl _ (klt_trans _ _ _ C H1)).
  - rewrite IH by assumption. reflexivity.
Qed.

Lemma fold_ins m : bkeys m -> forall acc, bkeys acc -> increasing (map fst acc) ->
  increasing (map fst (fold_left ins m acc)) /\ bkeys (fold_left ins m acc) /\
  forall k, find k (fold_left ins m acc) =
    match find k acc with Some x => Some x | None => option_map norm (find k m) end.
Proof.
  induction m as [|[k0 v0] m IH]; intros Hb acc Hacc Hi.
  - cbn. split; [exact Hi|]. split; [exact Hacc|]. intros k. destruct (find k acc); reflexivity.
  - apply Forall_cons_iff in Hb as [Hb1 Hb2]. cbn [fst] in Hb1. cbn [fold_left].
    assert (B : bkeys (ins acc (k0, v0))) by (apply insert_Forall; assumption).
    assert (In : increasing (map fst (ins acc (k0, v0)))) by (apply insert_increasing; assumption).
    destruct (IH Hb2 _ B In) as (A & C & F). split; [exact A|]. split; [exact C|].
    intros k. rewrite F. unfold ins at 1. cbn [fst snd]. rewrite insert_find by assumption. cbn [find].
    destruct (find k acc); [reflexivity|]. destruct (list_eq_dec N.eq_dec k k0); reflexivity.
Qed.
Lemma fold_ins_Forall (Q : list N * json -> Prop) m : Forall (fun kv => Q (fst kv, norm (snd kv))) m ->
  forall acc, Forall Q acc -> Forall Q (fold_left ins m acc).
Proof.
  induction 1 as [|[k v] m Hk _ IH]; intros acc Ha; [exact Ha|]. cbn [fold_left]. apply IH.
  apply insert_Forall; assumption.
Qed.
Lemma fold_ins_last m : bkeys m -> increasing (map fst m) -> Forall (fun kv => norm (snd kv) = snd kv) m ->
  forall acc, bkeys acc -> Forall (fun kv => Forall (klt (fst kv)) (map fst m)) acc ->
  fold_left ins m acc = acc ++ m.
Proof.
  induction m as [|[k v] m IH]; intros Hb Hi Hn acc Ha Hl; [rewrite app_nil_r; reflexivity|].
  apply Forall_cons_iff in Hb as [Hb1 Hb2]. apply Forall_cons_iff in Hn as [Hn1 Hn2]. cbn [map fst snd] in *.
  pose proof (increasing_cons _ _ Hi) as [Hi1 Hi2]. cbn [fold_left]. unfold ins at 2. cbn [fst snd]. rewrite Hn1, insert_last.
  - rewrite IH; [rewrite <- app_assoc; reflexivity|assumption..| |].
    + apply Forall_app. split; [exact Ha|repeat constructor; exact Hb1].
    + apply Forall_app. split; [|repeat constructor; exact Hi2].
      eapply Forall_impl; [|exact Hl]. intros a H. cbn in H. apply Forall_cons_iff in H. tauto.
  - exact Hb1.
  - exact Ha.
  - eapply Forall_impl; [|exact Hl]. intros a H. cbn in H. apply Forall_cons_iff in H. tauto.
Qed.

(** ** Bytes of names *)
Lemma standard_bytes c : c < 0x110000 -> bytes_ok (utf8_standard c).
Proof.
  intros H. unfold utf8_standard, bytes_ok, byte_ok.
  destruct (N.leb_spec c 0x7F); [repeat constructor; lia|].
  destruct (N.leb_spec c 0x7FF); [repeat constructor; lia|].
  destruct (N.leb_spec c 0xFFFF); repeat constructor; lia.
Qed.
Lemma jchars_bytes (P : N -> Prop) t s : (forall x : N, P x -> plainP x) -> jchars P t s -> bytes_ok s.
Proof.
  intros HP. induction 1 as [|t c ts cs H _ IH]; [constructor|]. apply Forall_app. split; [|exact IH].
  destruct H as [c' H|e c' H|t' c' _ _ H|t1 t2 hi lo _ _ _ _ H].
  - repeat constructor. unfold byte_ok. lia.
  - repeat constructor. destruct H; reflexivity.
  - apply standard_bytes. apply HP in H. destruct H as (_ & _ & H). lia.
  - apply standard_bytes. apply HP in H. destruct H as (_ & _ & H). lia.
Qed.

Lemma norm_same_grammar (P : N -> Prop) : (forall x : N, P x -> plainP x) ->
  (forall v t, jtext P v t -> same v (norm v) /\ ordered (norm v)) /\
  (forall l t, jelems P l t -> Forall (fun v => same v (norm v) /\ ordered (norm v)) l) /\
  (forall m t, jmembers P m t ->
     Forall (fun kv => bytes_ok (fst kv) /\ same (snd kv) (norm (snd kv)) /\ ordered (norm (snd kv))) m).
Proof.
  intros HP. apply json_min; try (intros; split; constructor; fail).
  - intros; split; repeat constructor.
  - intros l t _ IH. cbn [norm]. split.
    + constructor. induction IH as [|v l [H _] _ IH]; constructor; auto.
    + constructor. rewrite Forall_map. eapply Forall_impl; [|exact IH]. cbn. tauto.
  - intros; split; [constructor; intros; constructor|]. repeat constructor.
  - intros m t _ IH. cbn [norm]. fold ins.
    assert (B : bkeys m) by (eapply Forall_impl; [|exact IH]; cbn; tauto).
    destruct (fold_ins m B [] ltac:(constructor) ltac:(exact I)) as (I1 & I2 & I3). split.
    + constructor. intros k. change (fun (acc : list (list N * json)) kv => insertField (fst kv) (norm (snd kv)) acc) with ins.
      rewrite I3. cbn [find]. clear - IH.
      induction IH as [|[k' v] m H _ IH]; [constructor|]. cbn [find].
      destruct (list_eq_dec N.eq_dec k k'); [cbn; constructor; tauto|exact IH].
    + constructor; [|exact I1]. apply (fold_ins_Forall (fun kv => ordered (snd kv))); [|constructor].
      eapply Forall_impl; [|exact IH]. cbn. tauto.
  - intros v t w1 w2 _ _ H _. repeat constructor; tauto.
  - intros v t w1 w2 l ts _ _ H _ _ Hl. constructor; assumption.
  - intros k tk v t w1 w2 w3 w4 _ Hk _ _ _ H _. repeat constructor; try tauto. apply (jchars_bytes P tk k HP Hk).
  - intros k tk v t w1 w2 w3 w4 m ts _ Hk _ _ _ H _ _ Hm. constructor; [|exact Hm]. split; [apply (jchars_bytes P tk k HP Hk)|tauto].
Qed.

(** ** Values already in order *)
Section JsonInd.
  Variable Q : json -> Prop.
  Hypothesis H0 : Q JNull.
  Hypothesis H1 : forall b, Q (JBool b).
  Hypothesis H2 : forall z, Q (JInt z).
  Hypothesis H3 : forall t, Q (JFloat t).
  Hypothesis H4 : forall s, Q (JStr s).
  Hypothesis H5 : forall l, Forall Q l -> Q (JArr l).
  Hypothesis H6 : forall m, Forall (fun kv => Q (snd kv)) m -> Q (JObj m).
  Fixpoint json_deep (v : json) : Q v :=
    match v with
    | JNull => H0
    | JBool b => H1 b
    | JInt z => H2 z
    | JFloat t => H3 t
    | JStr s => H4 s
    | JArr l => H5 l ((fix go (l : list json) : Forall Q l :=
        match l with [] => Forall_nil _ | x :: l => Forall_cons _ (json_deep x) (go l) end) l)
    | JObj m => H6 m ((fix go (m : list (list N * json)) : Forall (fun kv => Q (snd kv)) m :=
        match m with [] => Forall_nil _ | x :: m => Forall_cons _ (json_deep (snd x)) (go m) end) m)
    end.
End JsonInd.
Lemma norm_canonical (S : list N -> Prop) v : (forall s, S s -> bytes_ok s) -> canonical S v -> norm v = v.
Proof.
  intros HS. induction v as [|b|z|t|s|l IH|m IH] using json_deep; intros C; try reflexivity.
  - inversion C as [| | | |l' Hl E|]; subst. cbn [norm]. f_equal. clear C.
    induction IH as [|x l Hx _ IH]; [reflexivity|]. apply Forall_cons_iff in Hl as [A B]. cbn [map]. f_equal; auto.
  - inversion C as [| | | | |m' Hm Hi E]; subst. cbn [norm]. f_equal. fold ins. rewrite <- (app_nil_l m) at 2.
    apply (fold_ins_last m).
    + eapply Forall_impl; [|exact Hm]. cbn. intros a [A _]. auto.
    + exact Hi.
    + rewrite Forall_forall in *. intros a Ha. apply IH; [exact Ha|]. apply Hm. exact Ha.
    + constructor.
    + constructor.
Qed.
