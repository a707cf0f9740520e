(** Proofs about PoolAlloc. *)
From Coq Require Import ZArith Permutation.
From Verif Require Import Common PoolAlloc_Model.
Open Scope Z_scope.

Lemma size_of_in i h : In i (map fst h) <-> size_of i h <> None.
Proof.
  induction h as [|[j n] h IH]; cbn; [split; [intros []|congruence]|]. destruct (i =? j)%nat eqn:E.
  - apply Nat.eqb_eq in E. split; [discriminate|auto].
  - apply Nat.eqb_neq in E. rewrite <- IH. split; [intros [?|?]; [congruence|assumption]|auto].
Qed.
Lemma size_of_drop i j h : i <> j -> size_of i (drop j h) = size_of i h.
Proof.
  intros N. induction h as [|[k n] h IH]; cbn; [reflexivity|]. destruct (j =? k)%nat eqn:E; cbn.
  - apply Nat.eqb_eq in E. subst k. destruct (i =? j)%nat eqn:Q; [apply Nat.eqb_eq in Q; congruence|exact IH].
  - fold (drop j h). rewrite IH. reflexivity.
Qed.
Lemma drop_absent i h : ~ In i (map fst h) -> drop i h = h.
Proof.
  induction h as [|[k n] h IH]; cbn; intros N; [reflexivity|]. destruct (i =? k)%nat eqn:E; cbn; [apply Nat.eqb_eq in E; subst; tauto|]. f_equal. apply IH. tauto.
Qed.
Lemma drop_perm i h l : NoDup (map fst h) -> Permutation (map fst h) (i :: l) -> Permutation (map fst (drop i h)) l.
Proof.
  revert l. induction h as [|[k n] h IH]; cbn; intros l N P; [apply Permutation_nil in P; discriminate|]. inversion N as [|? ? N1 N2]; subst.
  destruct (i =? k)%nat eqn:E; cbn.
  - apply Nat.eqb_eq in E. subst k. apply Permutation_cons_inv in P. fold (drop i h). rewrite drop_absent by exact N1. exact P.
  - apply Nat.eqb_neq in E. fold (drop i h). assert (I : In k l) by (assert (J : In k (i :: l)) by (apply (Permutation_in _ P); left; reflexivity); destruct J; [congruence|assumption]).
    apply in_split in I. destruct I as (a & b & ->). rewrite <- Permutation_middle. constructor. apply IH; [exact N2|].
    apply (Permutation_cons_inv (a := k)). rewrite P. rewrite perm_swap. constructor. symmetry. apply Permutation_middle.
Qed.
Lemma drop_nodup i h : NoDup (map fst h) -> NoDup (map fst (drop i h)).
Proof.
  induction h as [|[k n] h IH]; cbn; intros N; [constructor|]. inversion N as [|? ? N1 N2]; subst. destruct (i =? k)%nat; cbn; [apply IH; exact N2|].
  constructor; [|apply IH; exact N2]. intros I. apply N1. apply in_map_iff in I. destruct I as ([a b] & <- & I). apply filter_In in I. apply in_map_iff. exists (a, b). tauto.
Qed.
Lemma del_ok i h : In i (map fst h) -> del i h = Ok (drop i h).
Proof. intros I. apply size_of_in in I. unfold del. destruct (size_of i h); [reflexivity|congruence]. Qed.

(** the heap: exactly the free blocks and those in use, each once *)
Definition HI (h : heap) (l : list nat) (fr : nat) : Prop := NoDup (map fst h) /\ Permutation (map fst h) l /\ forall i, In i (map fst h) -> (i < fr)%nat.
Lemma HI_perm h l l' fr : Permutation l l' -> HI h l fr -> HI h l' fr.
Proof. intros P (A & B & C). split; [exact A|]. split; [rewrite B; exact P|exact C]. Qed.
Lemma HI_del h i l fr : HI h (i :: l) fr -> del i h = Ok (drop i h) /\ HI (drop i h) l fr /\ ~ In i l.
Proof.
  intros (A & B & C). assert (I : In i (map fst h)) by (apply (Permutation_in _ (Permutation_sym B)); left; reflexivity).
  split; [apply del_ok; exact I|]. split.
  - split; [apply drop_nodup; exact A|]. split; [apply drop_perm; auto|]. intros j J. apply C.
    apply (Permutation_in _ (drop_perm i h l A B)) in J. apply (Permutation_in _ (Permutation_sym B)). right. exact J.
  - assert (N : NoDup (i :: l)) by (apply (Permutation_NoDup B); exact A). inversion N; assumption.
Qed.
Lemma HI_size h i l fr : HI h l fr -> In i l -> exists m, size_of i h = Some m.
Proof.
  intros (A & B & C) I. assert (J : In i (map fst h)) by (apply (Permutation_in _ (Permutation_sym B)); exact I).
  apply size_of_in in J. destruct (size_of i h) as [m|]; [eauto|congruence].
Qed.

Lemma take_ok n f : forall h l fr, HI h (f ++ l) fr -> exists x f' h', take n f h = Ok (x, f', h') /\ (forall i, In i l -> size_of i h' = size_of i h) /\
  match x with
  | Some b => HI h' (f' ++ b :: l) fr /\ ~ In b l /\ exists m, size_of b h' = Some m /\ n <= m
  | None => f' = [] /\ HI h' l fr
  end.
Proof.
  induction f as [|x f IH]; cbn [take app]; intros h l fr H; [exists None, [], h; auto|].
  destruct (HI_size h x _ fr H) as (m & M); [left; reflexivity|]. rewrite M. destruct (HI_del h x _ fr H) as (D & H' & N). destruct (m <? n) eqn:L.
  - rewrite D. cbn [obind]. destruct (IH _ _ _ H') as (y & f' & h' & E & S & Q). exists y, f', h'. split; [exact E|]. split; [|exact Q].
    intros i I. rewrite S by exact I. apply size_of_drop. intros ->. apply N. apply in_or_app. auto.
  - exists (Some x), f, h. split; [reflexivity|]. split; [auto|]. split; [|split].
    + apply (HI_perm _ (x :: f ++ l)); [|exact H]. apply Permutation_middle.
    + intros I. apply N. apply in_or_app. auto.
    + exists m. split; [exact M|lia].
Qed.

Record PI (k : Z) (s : st) (ids : list nat) : Prop := {
  p_heap : HI (mem s) (free s ++ ids) (fresh s);
  p_refs : refs s = Z.of_nat (length ids) + k;
  p_zero : refs s = 0 -> free s = [];
  p_dead : destroyed s = true -> free s = [];
}.
Lemma init_pi : PI 1 init [].
Proof. constructor; cbn; auto. split; [constructor|]. split; [constructor|]. intros i []. Qed.
Lemma PI_perm k s ids ids' : Permutation ids ids' -> PI k s ids -> PI k s ids'.
Proof. intros P [A B C D]. constructor; auto. - apply (HI_perm _ (free s ++ ids)); [|exact A]. apply Permutation_app_head. exact P. - rewrite B. rewrite (Permutation_length P). reflexivity. Qed.
Lemma alloc_ok ok n k s ids : 0 <= k -> PI k s ids -> exists r s', alloc ok n s = Ok (r, s') /\
  (forall i, In i ids -> size_of i (mem s') = size_of i (mem s)) /\
  match r with
  | Some b => PI k s' (b :: ids) /\ ~ In b ids /\ exists m, size_of b (mem s') = Some m /\ Z.max 8 n <= m
  | None => ok = false /\ PI (k + 1) s' ids
  end.
Proof.
  intros K [A B C D]. unfold alloc. set (n' := if n <? 8 then 8 else n). assert (LN : Z.max 8 n <= n') by (unfold n'; destruct (n <? 8) eqn:Q; lia).
  destruct (take_ok n' (free s) (mem s) ids (fresh s) A) as (x & f & h & E & S & Q). rewrite E. cbn [obind]. destruct x as [b|].
  - destruct Q as (Q1 & Q2 & m & M & L). eexists. eexists. split; [reflexivity|]. split; [exact S|]. cbn. split; [|split; [exact Q2|exists m; split; [exact M|lia]]].
    constructor; cbn [free refs mem fresh destroyed]; auto.
    + cbn [length]. lia.
    + intros Z. lia.
    + intros T. specialize (D T). rewrite D in E. cbn in E. discriminate.
  - destruct Q as (-> & Q). set (big := if largest s <? n' then n' else largest s). set (n2 := if n' <? big then big else n').
    assert (L2 : n' <= n2) by (unfold n2; destruct (n' <? big) eqn:T; lia). destruct ok.
    + assert (NF : ~ In (fresh s) (map fst h)) by (intros I; apply Q in I; lia).
      assert (NI : ~ In (fresh s) ids) by (intros I; apply NF; apply (Permutation_in _ (Permutation_sym (proj1 (proj2 Q)))); exact I).
      eexists. eexists. split; [reflexivity|]. cbn [mem]. split; [|split; [|split; [exact NI|]]].
      * intros i I. cbn. destruct (i =? fresh s)%nat eqn:T; [apply Nat.eqb_eq in T; congruence|]. apply S. exact I.
      * constructor; cbn [free refs mem fresh destroyed]; auto; [|cbn [length]; lia].
        destruct Q as (Q1 & Q2 & Q3). split; [cbn; constructor; assumption|]. split; [cbn; constructor; exact Q2|]. cbn. intros i [<-|I]; [lia|]. specialize (Q3 i I). lia.
      * exists n2. cbn. rewrite Nat.eqb_refl. split; [reflexivity|lia].
    + eexists. eexists. split; [reflexivity|]. split; [exact S|]. split; [reflexivity|]. constructor; cbn [free refs mem fresh destroyed]; auto. lia.
Qed.
Lemma del_all_ok f : forall h l fr, HI h (f ++ l) fr -> exists h', del_all f h = Ok h' /\ HI h' l fr /\ forall i, In i l -> size_of i h' = size_of i h.
Proof.
  induction f as [|x f IH]; cbn [del_all app]; intros h l fr H; [eauto|]. destruct (HI_del h x _ fr H) as (D & H' & N). rewrite D. cbn [obind].
  destruct (IH _ _ _ H') as (h' & E & Q & S). exists h'. split; [exact E|]. split; [exact Q|]. intros i I. rewrite S by exact I. apply size_of_drop. intros ->. apply N. apply in_or_app. auto.
Qed.
Lemma freeExtra_ok k s ids : PI k s ids -> exists s', freeExtra s = Ok s' /\ PI k s' ids /\ free s' = [] /\ refs s' = refs s /\ forall i, In i ids -> size_of i (mem s') = size_of i (mem s).
Proof.
  intros [A B C D]. unfold freeExtra. destruct (del_all_ok _ _ _ _ A) as (h' & E & Q & S). rewrite E. cbn [obind]. eexists. split; [reflexivity|].
  split; [|split; [reflexivity|split; [reflexivity|exact S]]]. constructor; cbn; auto.
Qed.
Lemma release_ok k s ids : 1 <= k -> HI (mem s) (free s ++ ids) (fresh s) -> refs s = Z.of_nat (length ids) + k -> (destroyed s = true -> free s = []) ->
  exists s', release s = Ok s' /\ PI (k - 1) s' ids /\ forall i, In i ids -> size_of i (mem s') = size_of i (mem s).
Proof.
  intros K A B D. unfold release. set (s1 := mkSt (free s) (largest s) (destroyed s) (refs s - 1) (mem s) (fresh s)). change (refs s1) with (refs s - 1).
  destruct (refs s - 1 =? 0) eqn:Z0.
  - unfold freeExtra. cbn [free mem s1]. destruct (del_all_ok _ _ _ _ A) as (h' & E & Q & S). rewrite E. cbn [obind]. eexists. split; [reflexivity|]. split; [|exact S].
    constructor; cbn; auto. lia.
  - eexists. split; [reflexivity|]. split; [|auto]. constructor; cbn; auto; lia.
Qed.
Lemma dealloc_ok b k s ids : 0 <= k -> PI k s (b :: ids) -> exists s', dealloc b s = Ok s' /\ PI k s' ids /\ forall i, In i ids -> size_of i (mem s') = size_of i (mem s).
Proof.
  intros K [A B C D]. unfold dealloc. assert (A' : HI (mem s) (b :: free s ++ ids) (fresh s)) by (apply (HI_perm _ (free s ++ b :: ids)); [symmetry; apply Permutation_middle|exact A]).
  destruct (HI_size _ b _ _ A') as (m & M); [left; reflexivity|]. rewrite M. destruct (HI_del _ b _ _ A') as (E & H' & N). destruct (destroyed s) eqn:DD.
  - rewrite E. cbn [obind]. destruct (release_ok (k + 1) (mkSt (free s) (largest s) true (refs s) (drop b (mem s)) (fresh s)) ids) as (s' & R & P & S); cbn [mem free fresh refs destroyed]; auto.
    + lia.
    + cbn [length] in B. lia.
    + exists s'. rewrite R. split; [reflexivity|]. replace (k + 1 - 1) with k in P by lia. split; [exact P|]. intros i I. rewrite S by exact I. cbn [mem]. apply size_of_drop. intros ->. apply N. apply in_or_app. auto.
  - cbn [obind]. destruct (release_ok (k + 1) (mkSt (b :: free s) (largest s) false (refs s) (mem s) (fresh s)) ids) as (s' & R & P & S); cbn [mem free fresh refs destroyed app]; auto.
    + lia.
    + cbn [length] in B. lia.
    + discriminate.
    + exists s'. rewrite R. split; [reflexivity|]. replace (k + 1 - 1) with k in P by lia. split; [exact P|exact S].
Qed.

(** * A user of a pool *)
Lemma rem_perm {A} (x : A) l : forall i, nth_error l i = Some x -> Permutation l (x :: rem i l).
Proof.
  induction l as [|y l IH]; intros [|i] E; try discriminate; cbn in E.
  - injection E as ->. reflexivity.
  - cbn. rewrite (IH i E) at 1. apply perm_swap.
Qed.
Lemma rem_map {A B} (f : A -> B) l : forall i, map f (rem i l) = rem i (map f l).
Proof. induction l as [|y l IH]; intros [|i]; cbn; auto. rewrite IH. reflexivity. Qed.
Definition fits (h : heap) (e : nat * Z) : Prop := exists m, size_of (fst e) h = Some m /\ Z.max 8 (snd e) <= m.
Definition UI (f : Z) (u : user) : Prop :=
  PI ((if gone u then 0 else 1) + f) (pool u) (map fst (held u)) /\ Forall (fits (mem (pool u))) (held u).
Lemma fits_same h h' l : (forall i, In i (map fst l) -> size_of i h' = size_of i h) -> Forall (fits h) l -> Forall (fits h') l.
Proof.
  intros S F. apply Forall_forall. intros e I. rewrite Forall_forall in F. destruct (F e I) as (m & M & L). exists m. rewrite S by (apply in_map; exact I). auto.
Qed.
Definition fails (o : op) : Z := match o with Alloc false _ => 1 | _ => 0 end.
Lemma exec_ok f o u : 0 <= f -> UI f u -> exists u' f', exec o u = Ok u' /\ UI f' u' /\ f <= f' <= f + fails o.
Proof.
  intros F0 [P F]. assert (K0 : 0 <= (if gone u then 0 else 1) + f) by (destruct (gone u); lia). destruct o as [ok n|i| |]; cbn [exec fails].
  - destruct (alloc_ok ok n _ _ _ K0 P) as (r & s' & E & S & Q). rewrite E. cbn [obind]. destruct r as [b|].
    + destruct Q as (Q1 & Q2 & Q3). eexists. exists f. split; [reflexivity|]. split; [|destruct ok; lia]. split; [exact Q1|]. cbn [pool held]. constructor; [exact Q3|]. apply (fits_same (mem (pool u))); auto.
    + destruct Q as (-> & Q). eexists. exists (f + 1). split; [reflexivity|]. split; [|lia]. split; cbn [pool held gone]; [replace (_ + (f + 1)) with ((if gone u then 0 else 1) + f + 1) by lia; exact Q|]. apply (fits_same (mem (pool u))); auto.
  - destruct (nth_error (held u) i) as [[b n]|] eqn:E; [|exists u, f; split; [reflexivity|]; split; [split; assumption|lia]].
    pose proof (rem_perm _ _ _ E) as RP. assert (P' : PI ((if gone u then 0 else 1) + f) (pool u) (b :: map fst (rem i (held u)))) by (apply (PI_perm _ _ _ _ (Permutation_map fst RP) P)).
    destruct (dealloc_ok b _ _ _ K0 P') as (s' & R & Q & S). rewrite R. cbn [obind]. eexists. exists f. split; [reflexivity|]. split; [|lia]. split; [exact Q|]. cbn [pool held].
    apply (fits_same (mem (pool u))); auto. apply (Permutation_Forall RP) in F. inversion F; assumption.
  - destruct (freeExtra_ok _ _ _ P) as (s' & E & Q & _ & _ & S). rewrite E. cbn [obind]. eexists. exists f. split; [reflexivity|]. split; [|lia]. split; [exact Q|]. apply (fits_same (mem (pool u))); auto.
  - destruct (gone u) eqn:G; [exists u, f; split; [reflexivity|]; split; [split; [rewrite G; exact P|exact F]|lia]|].
    destruct P as [A B C D]. destruct (release_ok (1 + f) (pool u) (map fst (held u))) as (s' & E & Q & S); auto; [lia|]. rewrite E. cbn [obind]. eexists. exists f. split; [reflexivity|]. split; [|lia].
    split; cbn [pool held gone]; [replace (0 + f) with (1 + f - 1) by lia; exact Q|]. apply (fits_same (mem (pool u))); auto.
Qed.
Lemma run_ok l : forall f u, 0 <= f -> UI f u -> exists u' f', run l u = Ok u' /\ UI f' u' /\ f <= f' /\ (Forall (fun o => fails o = 0) l -> f' = f).
Proof.
  induction l as [|o l IH]; cbn [run]; intros f u F0 V; [exists u, f; split; [reflexivity|]; split; [exact V|]; split; [lia|auto]|].
  destruct (exec_ok f o u F0 V) as (u1 & f1 & E & V1 & L). rewrite E. cbn [obind]. destruct (IH f1 u1 ltac:(lia) V1) as (u' & f' & R & V' & L' & Q).
  exists u', f'. split; [exact R|]. split; [exact V'|]. split; [lia|]. intros Z0. inversion Z0; subst. rewrite Q by assumption. lia.
Qed.
Lemma init_ui : UI 0 user0.
Proof. split; [apply init_pi|constructor]. Qed.

(** * A user of MultiPoolAlloc *)
Definition ids (k : nat) (l : list (nat * nat * Z)) : list nat := map (fun e => snd (fst e)) (filter (fun e => (fst (fst e) =? k)%nat) l).
Definition heap_of (m : multi) (k : nat) : heap := match nth_error (pools m) k with Some s => mem s | None => std m end.
Record MI (m : multi) : Prop := {
  m_len : length (pools m) = 7%nat;
  m_pools : forall k s, nth_error (pools m) k = Some s -> exists x, 0 <= x /\ PI x s (ids k (inuse m));
  m_std : HI (std m) (ids 7 (inuse m)) (sfresh m);
  m_own : forall k b n, In (k, b, n) (inuse m) -> k = owner n /\ fits (heap_of m k) (b, n);
}.
Lemma ids_perm k l l' : Permutation l l' -> Permutation (ids k l) (ids k l').
Proof.
  intros P. unfold ids. apply Permutation_map. induction P; cbn; auto.
  - destruct (fst (fst x) =? k)%nat; auto.
  - destruct (fst (fst x) =? k)%nat, (fst (fst y) =? k)%nat; auto. apply perm_swap.
  - etransitivity; eassumption.
Qed.
Lemma ids_cons k j b n l : ids k ((j, b, n) :: l) = if (j =? k)%nat then b :: ids k l else ids k l.
Proof. unfold ids. cbn. destruct (j =? k)%nat; reflexivity. Qed.
Lemma in_ids k b n l : In (k, b, n) l -> In b (ids k l).
Proof. intros I. unfold ids. apply in_map_iff. exists (k, b, n). split; [reflexivity|]. apply filter_In. split; [exact I|]. cbn. apply Nat.eqb_refl. Qed.
Lemma owner_le n : (owner n <= 7)%nat.
Proof. unfold owner. repeat match goal with |- context [if ?c then _ else _] => destruct c end; lia. Qed.
Lemma owner_big n : owner n = 7%nat -> 1024 < n.
Proof. unfold owner. destruct (1024 <? n) eqn:E; [lia|]. repeat match goal with |- context [if ?c then _ else _] => destruct c end; discriminate. Qed.
Lemma nth_upd_other {A} (l : list A) i j x : i <> j -> nth_error (upd l i x) j = nth_error l j.
Proof. intros N. apply nth_error_upd_ne. congruence. Qed.
Lemma fits_one h h' (e : nat * Z) : size_of (fst e) h' = size_of (fst e) h -> fits h e -> fits h' e.
Proof. intros E (m & M & L). exists m. rewrite E. auto. Qed.

Lemma mexec_ok o m : MI m -> exists m', mexec o m = Ok m' /\ MI m'.
Proof.
  intros [ML MP MS MO]. destruct o as [ok n|i]; cbn [mexec].
  - set (k := owner n). destruct (nth_error (pools m) k) as [s|] eqn:E.
    + assert (K7 : (k < 7)%nat) by (rewrite <- ML; apply nth_error_Some; congruence).
      destruct (MP k s E) as (x & X0 & P). destruct (alloc_ok ok n x s _ X0 P) as (r & s' & R & S & Q). rewrite R. cbn [obind].
      eexists. split; [reflexivity|]. constructor; cbn [pools std sfresh inuse].
      * rewrite upd_length. exact ML.
      * intros j t J. destruct (Nat.eq_dec k j) as [<-|N].
        -- rewrite nth_error_upd_eq in J by lia. injection J as <-. destruct r as [b|].
           ++ rewrite ids_cons, Nat.eqb_refl. exists x. split; [exact X0|apply Q].
           ++ exists (x + 1). split; [lia|apply Q].
        -- rewrite nth_upd_other in J by exact N. destruct (MP j t J) as (y & Y0 & PY). exists y. split; [exact Y0|]. destruct r as [b|]; [|exact PY].
           rewrite ids_cons. destruct (k =? j)%nat eqn:T; [apply Nat.eqb_eq in T; congruence|exact PY].
      * destruct r as [b|]; [|exact MS]. rewrite ids_cons. destruct (k =? 7)%nat eqn:T; [apply Nat.eqb_eq in T; lia|exact MS].
      * assert (HO : forall j b c, In (j, b, c) (inuse m) -> j = owner c /\ fits (heap_of (mkM (upd (pools m) k s') (std m) (sfresh m) []) j) (b, c)).
        { intros j b c I. destruct (MO j b c I) as [O F]. split; [exact O|]. unfold heap_of in *. cbn [pools std]. destruct (Nat.eq_dec k j) as [<-|N].
          - rewrite nth_error_upd_eq by lia. rewrite E in F. apply (fits_one (mem s)); [|exact F]. apply S. apply in_ids in I. exact I.
          - rewrite nth_upd_other by exact N. exact F. }
        intros j b c I. destruct r as [d|].
        -- destruct I as [I|I]; [|apply HO; exact I]. injection I as <- <- <-. split; [reflexivity|]. unfold heap_of. cbn [pools std]. rewrite nth_error_upd_eq by lia. apply Q.
        -- apply HO. exact I.
    + assert (K7 : k = 7%nat) by (apply nth_error_None in E; pose proof (owner_le n); fold k in H; lia).
      destruct ok; [|exists m; split; [reflexivity|constructor; assumption]]. eexists. split; [reflexivity|].
      destruct MS as (S1 & S2 & S3). assert (NF : ~ In (sfresh m) (map fst (std m))) by (intros I; apply S3 in I; lia).
      constructor; cbn [pools std sfresh inuse]; auto.
      * intros j s J. destruct (MP j s J) as (y & Y0 & PY). exists y. split; [exact Y0|]. rewrite ids_cons. destruct (k =? j)%nat eqn:T; [apply Nat.eqb_eq in T; congruence|exact PY].
      * rewrite ids_cons, K7. cbn [Nat.eqb]. split; [cbn; constructor; assumption|]. split; [cbn; constructor; exact S2|]. cbn. intros i [<-|I]; [lia|]. specialize (S3 i I). lia.
      * intros j b c [I|I].
        -- injection I as <- <- <-. split; [reflexivity|]. unfold heap_of. cbn [pools std]. rewrite E. exists n. cbn. rewrite Nat.eqb_refl. split; [reflexivity|]. pose proof (owner_big n K7). lia.
        -- destruct (MO j b c I) as [O F]. split; [exact O|]. unfold heap_of in *. cbn [pools std]. destruct (nth_error (pools m) j) eqn:EJ; [exact F|].
           apply (fits_one (std m)); [|exact F]. cbn. destruct (b =? sfresh m)%nat eqn:T; [|reflexivity]. apply Nat.eqb_eq in T. subst b. exfalso. apply NF. apply size_of_in. destruct F as (q & F & _). cbn in F. congruence.
  - destruct (nth_error (inuse m) i) as [[[k b] n]|] eqn:E; [|exists m; split; [reflexivity|constructor; assumption]].
    pose proof (rem_perm _ _ _ E) as RP. destruct (MO k b n) as [O F]; [apply nth_error_In in E; exact E|]. subst k. rewrite Nat.eqb_refl. set (k := owner n) in *.
    assert (RI : forall e, In e (rem i (inuse m)) -> In e (inuse m)) by (intros e I; apply (Permutation_in _ (Permutation_sym RP)); right; exact I).
    assert (IDK : Permutation (ids k (inuse m)) (b :: ids k (rem i (inuse m)))) by (rewrite (ids_perm k _ _ RP), ids_cons, Nat.eqb_refl; reflexivity).
    assert (IDO : forall j, k <> j -> Permutation (ids j (inuse m)) (ids j (rem i (inuse m)))) by (intros j N; rewrite (ids_perm j _ _ RP), ids_cons; destruct (k =? j)%nat eqn:T; [apply Nat.eqb_eq in T; congruence|reflexivity]).
    destruct (nth_error (pools m) k) as [s|] eqn:EK.
    + assert (K7 : (k < 7)%nat) by (rewrite <- ML; apply nth_error_Some; congruence).
      destruct (MP k s EK) as (x & X0 & P). apply (PI_perm _ _ _ _ IDK) in P. destruct (dealloc_ok b x s _ X0 P) as (s' & R & Q & S). rewrite R. cbn [obind]. eexists. split; [reflexivity|].
      constructor; cbn [pools std sfresh inuse].
      * rewrite upd_length. exact ML.
      * intros j t J. destruct (Nat.eq_dec k j) as [<-|N].
        -- rewrite nth_error_upd_eq in J by lia. injection J as <-. exists x. auto.
        -- rewrite nth_upd_other in J by exact N. destruct (MP j t J) as (y & Y0 & PY). exists y. split; [exact Y0|]. apply (PI_perm _ _ _ _ (IDO j N) PY).
      * apply (HI_perm _ _ _ _ (IDO 7%nat ltac:(lia)) MS).
      * intros j d c I. destruct (MO j d c (RI _ I)) as [O' F']. split; [exact O'|]. unfold heap_of in *. cbn [pools std]. destruct (Nat.eq_dec k j) as [<-|N].
        -- rewrite nth_error_upd_eq by lia. rewrite EK in F'. apply (fits_one (mem s)); [|exact F']. apply S. apply in_ids in I. exact I.
        -- rewrite nth_upd_other by exact N. exact F'.
    + assert (K7 : k = 7%nat) by (apply nth_error_None in EK; pose proof (owner_le n); fold k in H; lia).
      rewrite K7 in IDK. apply (HI_perm _ _ _ _ IDK) in MS. destruct (HI_del _ b _ _ MS) as (R & Q & N). rewrite R. cbn [obind]. eexists. split; [reflexivity|].
      constructor; cbn [pools std sfresh inuse]; auto.
      * intros j t J. destruct (MP j t J) as (y & Y0 & PY). exists y. split; [exact Y0|]. apply (PI_perm _ _ _ _ (IDO j ltac:(congruence)) PY).
      * intros j d c I. destruct (MO j d c (RI _ I)) as [O' F']. split; [exact O'|]. unfold heap_of in *. cbn [pools std]. destruct (nth_error (pools m) j) eqn:EJ; [exact F'|].
        apply (fits_one (std m)); [|exact F']. apply size_of_drop. cbn. intros ->. apply N. apply nth_error_None in EJ. pose proof (owner_le c). assert (j = 7%nat) by lia. subst j. rewrite H0 in I. apply in_ids in I. exact I.
Qed.
Lemma mrun_ok l : forall m, MI m -> exists m', mrun l m = Ok m' /\ MI m'.
Proof.
  induction l as [|o l IH]; cbn [mrun]; intros m V; [eauto|]. destruct (mexec_ok o m V) as (m1 & E & V1). rewrite E. cbn [obind]. apply IH. exact V1.
Qed.
Lemma multi0_mi : MI multi0.
Proof.
  constructor; cbn; auto.
  - intros k s E. exists 1. split; [lia|]. assert (s = init) as -> by (do 7 (destruct k as [|k]; [injection E as <-; reflexivity|]); destruct k; discriminate). apply init_pi.
  - split; [constructor|]. split; [constructor|]. intros i [].
  - intros k b n [].
Qed.

(** * Reuse *)
Lemma freeExtra_destroyed s s' : freeExtra s = Ok s' -> destroyed s' = destroyed s /\ refs s' = refs s.
Proof. unfold freeExtra. destruct (del_all (free s) (mem s)); cbn [obind]; try discriminate. intros E. injection E as <-. auto. Qed.
Lemma release_destroyed s s' : refs s <> 1 -> release s = Ok s' -> destroyed s' = destroyed s.
Proof. unfold release. cbn [refs]. intros N. destruct (refs s - 1 =? 0) eqn:E; [lia|]. intros Q. injection Q as <-. reflexivity. Qed.
Lemma exec_alive f o u u' : 0 <= f -> UI f u -> destroyed (pool u) = false -> exec o u = Ok u' -> gone u' = false -> destroyed (pool u') = false.
Proof.
  intros F0 [P F] D E G. destruct o as [ok n|i| |]; cbn [exec] in E.
  - destruct (alloc ok n (pool u)) as [[b s']| | |] eqn:A; cbn [obind] in E; try discriminate. injection E as <-. cbn [pool gone] in *. unfold alloc in A.
    destruct (take _ _ _) as [[[x r] h]| | |]; cbn [obind] in A; try discriminate. destruct x; [injection A as <- <-; exact D|]. destruct ok; injection A as <- <-; exact D.
  - destruct (nth_error (held u) i) as [[b n]|] eqn:N; [|injection E as <-; exact D].
    destruct (dealloc b (pool u)) as [s'| | |] eqn:A; cbn [obind] in E; try discriminate. injection E as <-. cbn [pool gone] in *. unfold dealloc in A.
    destruct (size_of b (mem (pool u))); [|discriminate]. rewrite D in A. cbn [obind] in A. apply release_destroyed in A; [rewrite A; reflexivity|]. cbn [refs].
    destruct P as [_ R _ _]. rewrite R, G, map_length. assert (NL : (i < length (held u))%nat) by (apply nth_error_Some; congruence). lia.
  - destruct (freeExtra (pool u)) as [s'| | |] eqn:A; cbn [obind] in E; try discriminate. injection E as <-. cbn [pool]. apply freeExtra_destroyed in A. destruct A as [-> _]. exact D.
  - destruct (gone u) eqn:GU; [injection E as <-; congruence|]. destruct (release (pool u)); cbn [obind] in E; try discriminate. injection E as <-. discriminate.
Qed.
Lemma run_alive l : forall f u u', 0 <= f -> UI f u -> (gone u = false -> destroyed (pool u) = false) -> run l u = Ok u' -> gone u' = false -> destroyed (pool u') = false.
Proof.
  induction l as [|o l IH]; cbn [run]; intros f u u' F0 V D E G; [injection E as <-; auto|].
  destruct (exec_ok f o u F0 V) as (u1 & f1 & E1 & V1 & L). rewrite E1 in E. cbn [obind] in E. apply (IH f1 u1 u'); auto; [lia|]. intros G1.
  assert (G0 : gone u = false) by (destruct (gone u) eqn:GU; [|reflexivity]; exfalso; destruct o as [ok n|i| |]; cbn [exec] in E1;
    [destruct (alloc ok n (pool u)) as [[b s']| | |]; cbn [obind] in E1; try discriminate; injection E1 as <-; cbn in G1; congruence
    |destruct (nth_error (held u) i) as [[b n]|]; [destruct (dealloc b (pool u)); cbn [obind] in E1; try discriminate; injection E1 as <-; cbn in G1; congruence|injection E1 as <-; congruence]
    |destruct (freeExtra (pool u)); cbn [obind] in E1; try discriminate; injection E1 as <-; cbn in G1; congruence
    |rewrite GU in E1; injection E1 as <-; congruence]).
  apply (exec_alive f o u u1); auto.
Qed.
