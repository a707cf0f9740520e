(** Proofs about the message queue by its pointers. *)
From Verif Require Import Common MsgTwice_Model.

Fixpoint chain (nx : nat -> option nat) (p : option nat) (l : list nat) : Prop :=
  match l with [] => p = None | m :: t => p = Some m /\ chain nx (nx m) t end.
Lemma chain_ext f g : forall l p, (forall k, In k l -> f k = g k) -> chain f p l -> chain g p l.
Proof.
  induction l as [|m l IH]; cbn; intros p E C; [exact C|]. destruct C as [-> C]. split; [reflexivity|]. rewrite <- E by auto. apply IH; auto.
Qed.
Lemma isdead_in s m : isdead s m = true <-> In m (dead s).
Proof.
  unfold isdead. rewrite existsb_exists. split.
  - intros (x & I & E). apply Nat.eqb_eq in E. subst. exact I.
  - intros I. exists m. rewrite Nat.eqb_refl. auto.
Qed.
Lemma alive s m : ~ In m (dead s) -> isdead s m = false.
Proof. intros N. destruct (isdead s m) eqn:E; [|reflexivity]. apply isdead_in in E. tauto. Qed.

Definition posted (l : list nat) (s : ptrs) : Prop :=
  chain (nxt s) (newM s) (rev l) /\ curQ s = None /\ dead s = [] /\ forall k, ~ In k l -> nxt s k = None.
Lemma posts_chain : forall l l0 s, NoDup (l0 ++ l) -> posted l0 s -> exists s', posts l s = Ok s' /\ posted (l0 ++ l) s'.
Proof.
  induction l as [|m l IH]; intros l0 s N P.
  - exists s. rewrite app_nil_r. auto.
  - assert (NI : ~ In m l0) by (apply NoDup_remove_2 in N; intros I; apply N; apply in_or_app; auto).
    destruct P as (C & Q & D & Z). cbn [posts]. unfold post, getn, setn. rewrite alive by (rewrite D; intros []). cbn [obind]. rewrite (Z m NI).
    cbn [obind nxt newM curQ dead]. replace (l0 ++ m :: l) with ((l0 ++ [m]) ++ l) in * by (rewrite <- app_assoc; reflexivity).
    apply IH; [exact N|]. split; [|split; [exact Q|split; [exact D|]]]; cbn [nxt newM curQ dead].
    + rewrite rev_app_distr. cbn. split; [reflexivity|]. rewrite Nat.eqb_refl. apply (chain_ext (nxt s)); [|exact C].
      intros k I. destruct (k =? m) eqn:E; [|reflexivity]. apply Nat.eqb_eq in E. subst. apply in_rev in I. tauto.
    + intros k I. destruct (k =? m) eqn:E.
      * apply Nat.eqb_eq in E. subst. exfalso. apply I. apply in_or_app. right. left. reflexivity.
      * apply Z. intros J. apply I. apply in_or_app. auto.
Qed.
Lemma reverse_chain : forall l f p k r s, chain (nxt s) p l -> chain (nxt s) r k -> NoDup (l ++ k) -> dead s = [] -> length l <= f ->
  exists r' s', reverse f p r s = Ok (r', s') /\ chain (nxt s') r' (rev l ++ k) /\ newM s' = newM s /\ curQ s' = curQ s /\ dead s' = [].
Proof.
  induction l as [|m l IH]; intros f p k r s C K N D F.
  - cbn in C. subst p. destruct f; cbn; eauto 10.
  - cbn in C. destruct C as [-> C]. destruct f as [|f]; [cbn in F; lia|]. cbn [reverse]. unfold getn, setn. rewrite alive by (rewrite D; intros []). cbn [obind].
    inversion N as [|? ? NI N']; subst.
    edestruct (IH f (nxt s m) (m :: k) (Some m) (mkP (fun j => if j =? m then r else nxt s j) (newM s) (curQ s) (dead s))) as (r' & s' & E & C' & A1 & A2 & A3).
    + cbn. apply (chain_ext (nxt s)); [|exact C]. intros j J. destruct (j =? m) eqn:Q; [|reflexivity]. apply Nat.eqb_eq in Q. subst. exfalso. apply NI. apply in_or_app. auto.
    + cbn. split; [reflexivity|]. rewrite Nat.eqb_refl. apply (chain_ext (nxt s)); [|exact K]. intros j J. destruct (j =? m) eqn:Q; [|reflexivity].
      apply Nat.eqb_eq in Q. subst. exfalso. apply NI. apply in_or_app. auto.
    + apply NoDup_Add with (l := l ++ k) (a := m); [apply Add_app|]. split; auto.
    + exact D.
    + cbn in F. lia.
    + exists r', s'. cbn in A1, A2. cbn [rev]. rewrite <- app_assoc. auto.
Qed.
Lemma pump_chain : forall l f s, chain (nxt s) (curQ s) l -> newM s = None -> NoDup l -> (forall k, In k l -> ~ In k (dead s)) ->
  pumps f (S (length l)) s = Ok (map Some l ++ [None]).
Proof.
  induction l as [|m l IH]; intros f s C W N D.
  - cbn [length pumps]. unfold pump, getNext, prepare. cbn in C. rewrite C, W. destruct f; cbn; unfold append; cbn; rewrite ?C; reflexivity.
  - cbn in C. destruct C as [C1 C]. inversion N as [|? ? NI N']; subst. cbn [length]. change (pumps f (S (S (length l))) s) with
      (let! (m, s1) := pump f s in let! r := pumps f (S (length l)) s1 in Ok (m :: r)).
    unfold pump, getNext. rewrite C1. cbn [obind curQ]. rewrite C1. unfold getn, setn. rewrite (alive s m) by (apply D; left; reflexivity).
    cbn [obind]. assert (isdead (mkP (nxt s) (newM s) (nxt s m) (dead s)) m = false) as -> by (apply alive; cbn; apply D; left; reflexivity).
    cbn [obind nxt newM curQ dead]. rewrite alive by (cbn; apply D; left; reflexivity).
    cbn [obind]. rewrite IH; cbn [nxt newM curQ dead]; auto.
    + apply (chain_ext (nxt s)); [|exact C]. intros k J. destruct (k =? m) eqn:Q; [|reflexivity]. apply Nat.eqb_eq in Q. subst. tauto.
    + intros k J [<-|X]; [tauto|]. apply (D k); [right; exact J|exact X].
Qed.
Lemma fifo_ptr l f : NoDup l -> length l <= f -> exists s, posts l start = Ok s /\ posted l s /\ pumps f (S (length l)) s = Ok (map Some l ++ [None]).
Proof.
  intros N F. destruct (posts_chain l [] start N) as (s & E & P); [repeat split|]. cbn in P. exists s. split; [exact E|]. split; [exact P|].
  destruct P as (C & Q & D & _). destruct (Nat.eq_dec (length l) 0) as [Z|Z].
  - apply length_zero_iff_nil in Z. subst l. cbn in *. unfold pump, getNext, prepare. rewrite Q, C. destruct f; cbn; unfold append; cbn; rewrite ?Q; reflexivity.
  - edestruct (reverse_chain (rev l) f (newM s) [] None (mkP (nxt s) None (curQ s) (dead s))) as (r' & s' & E' & C' & A1 & A2 & A3); auto.
    { reflexivity. } { rewrite app_nil_r. apply NoDup_rev. exact N. } { rewrite rev_length. exact F. }
    rewrite app_nil_r, rev_involutive in C'. cbn in A1, A2.
    set (s2 := mkP (nxt s') (newM s') r' (dead s')).
    assert (PR : pumps f (S (length l)) s = pumps f (S (length l)) s2).
    { destruct l as [|m l]; [cbn in Z; lia|]. cbn in C'. destruct C' as [-> _].
      cbn [pumps length]. assert (pump f s = pump f s2) as ->; [|reflexivity].
      unfold pump. assert (getNext f s = getNext f s2) as ->; [|reflexivity].
      unfold getNext at 1. rewrite Q. unfold prepare. rewrite E'. cbn [obind]. unfold append. rewrite A2, Q. reflexivity. }
    rewrite PR. apply pump_chain; cbn; auto. rewrite A3. intros k _ [].
Qed.
Lemma chain_next nx : forall l p a b, chain nx p (a ++ b :: l) -> nx b = hd_error l.
Proof.
  intros l p a b. revert p. induction a as [|x a IH]; cbn; intros p [E C].
  - destruct l; cbn in C; [exact C|]. apply C.
  - apply (IH _ C).
Qed.
