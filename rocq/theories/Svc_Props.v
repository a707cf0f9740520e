(** Properties of the registry of services. *)
From Verif Require Import Common Svc_Spec Svc_Model Svc_Proof.

(** C542: after every history, an interface that has registered objects is answered
    by the one registered last *)
Theorem svc_active : forall l t o, query l t = Ok (Some o) <-> active (regsOf l) t = Some o.
Proof.
  intros l t o. unfold query, regsOf. destruct (R_run l init [] R_init) as (s & E & H). rewrite E. cbn [obind].
  rewrite active_ofT, <- H. unfold proxyInterface, lst. destruct (s t) as [[|x k]|]; cbn; split; congruence.
Qed.
Print Assumptions svc_active.
Example svc_active_example :
  query [Add 1 (Some 10); Add 1 (Some 11); Add 2 (Some 12); Add 1 (Some 13); RemObj 1 (Some 11); Rem 1] 1 = Ok (Some 10).
Proof. reflexivity. Qed.

(** C543 (with a condition): an interface without objects is answered by null, when objects are only
    removed from the top *)
Theorem svc_absent : forall l t, forallb noPtr l = true -> active (regsOf l) t = None -> query l t = Ok None.
Proof.
  intros l t N A. unfold query, regsOf in *. destruct (R_run l init [] R_init) as (s & E & H). rewrite E. cbn [obind].
  assert (T : tidy s) by (apply (tidy_run l init s N); [intros u; discriminate|auto]).
  rewrite active_ofT, <- H in A. unfold proxyInterface, lst in *. specialize (T t).
  destruct (s t) as [[|x k]|]; [congruence|discriminate|auto].
Qed.
Print Assumptions svc_absent.
Example svc_absent_example : query [Add 1 (Some 10); Add 2 (Some 11); Rem 1; Rem 1] 1 = Ok None /\
  active (regsOf [Add 1 (Some 10); Add 2 (Some 11); Rem 1; Rem 1]) 1 = None.
Proof. split; reflexivity. Qed.

(** C543 is false in general: when the only object of an interface is removed by its pointer, a query for
    the interface throws instead of returning null *)
Theorem svc_absent_refuted : forall l t o, active (regsOf l) t = None ->
  active (regsOf (l ++ [Add t (Some o); RemObj t (Some o)])) t = None /\
  query (l ++ [Add t (Some o); RemObj t (Some o)]) t = Throw.
Proof.
  intros l t o A.
  assert (S : forall l1 l2 s, run (l1 ++ l2) s = let! s' := run l1 s in run l2 s').
  { induction l1 as [|a l1 IH]; intros l2 s; cbn; auto. destruct (exec1 a s); cbn; auto. }
  split.
  - unfold regsOf in *. rewrite fold_left_app. cbn. unfold isTO. cbn. rewrite !Nat.eqb_refl. auto.
  - unfold query. rewrite S. unfold regsOf in A. destruct (R_run l init [] R_init) as (s & E & H). rewrite E. cbn [obind run exec1].
    rewrite active_ofT, <- H in A. unfold removeService, addService. rewrite set_same. cbn [eraseFound]. rewrite Nat.eqb_refl.
    unfold proxyInterface. rewrite set_same. unfold lst in A. destruct (s t) as [[|x k]|]; auto. discriminate.
Qed.
Print Assumptions svc_absent_refuted.
Example svc_absent_refuted_example : query [Add 1 (Some 10); RemObj 1 (Some 10)] 1 = Throw /\ query [Add 1 (Some 10); Rem 1] 1 = Ok None.
Proof. split; reflexivity. Qed.

(** C544: an object that is added with all its interfaces answers for all of them, and
    after it is removed every interface is answered by the object that answered before *)
Theorem svc_all : forall l o ts,
  (forall t, In t ts -> query (l ++ [AddAll o ts]) t = Ok (Some o)) /\
  (forall t x, query l t = Ok (Some x) <-> query (l ++ [AddAll o ts; RemAll o ts]) t = Ok (Some x)).
Proof.
  intros l o ts. split.
  - intros t I. apply svc_active. unfold regsOf. rewrite fold_left_app. cbn [fold_left]. apply active_add_all; auto.
  - intros t x. rewrite !svc_active. unfold regsOf. rewrite fold_left_app. cbn [fold_left]. rewrite add_rem_regs. tauto.
Qed.
Print Assumptions svc_all.
Example svc_all_example : query [Add 1 (Some 9); AddAll 10 [1; 2; 1]] 2 = Ok (Some 10) /\
  query [Add 1 (Some 9); AddAll 10 [1; 2; 1]; RemAll 10 [1; 2; 1]] 1 = Ok (Some 9).
Proof. split; reflexivity. Qed.
