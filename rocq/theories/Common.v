(** Common definitions of the lightspeed model: outcomes of C++ operations and
    small arithmetic facts.  Nothing here models a particular file of /repo. *)
From Coq Require Export List NArith ZArith Arith Bool Lia.
From Coq Require Export ZifyBool ZifyNat ZifyN.
Export ListNotations.

(** Every operation of the modelled C++ code ends in one of these ways.
    [Undef] is undefined behaviour (uninitialised read, out-of-bounds access,
    null dereference, use after free, signed overflow ...), [Throw] is a C++
    exception, [NoFuel] says that a bound put on a loop of the model (and not
    present in the code) was reached: theorems exclude it. *)
Inductive outcome (A : Type) : Type :=
| Ok (a : A)
| Throw
| Undef
| NoFuel.
Arguments Ok {A} a.
Arguments Throw {A}.
Arguments Undef {A}.
Arguments NoFuel {A}.

Definition obind {A B} (x : outcome A) (f : A -> outcome B) : outcome B :=
  match x with
  | Ok a => f a
  | Throw => Throw
  | Undef => Undef
  | NoFuel => NoFuel
  end.

Declare Scope outcome_scope.
Delimit Scope outcome_scope with outcome.
Notation "'let!' x ':=' e 'in' f" := (obind e (fun x => f))
  (at level 200, x pattern, e at level 100, f at level 200, right associativity) : outcome_scope.
Open Scope outcome_scope.

Lemma obind_ok {A B} (x : outcome A) (f : A -> outcome B) r :
  obind x f = Ok r -> exists a, x = Ok a /\ f a = Ok r.
Proof. destruct x; simpl; intros H; try discriminate. eauto. Qed.

(** update of one element of a list; out of range leaves the list unchanged *)
Fixpoint upd {A} (l : list A) (i : nat) (x : A) : list A :=
  match l, i with
  | [], _ => []
  | _ :: t, O => x :: t
  | h :: t, S j => h :: upd t j x
  end.

Lemma upd_length {A} (l : list A) i x : length (upd l i x) = length l.
Proof. revert i; induction l as [|a l IH]; intros [|i]; simpl; auto. Qed.

Lemma nth_error_upd_eq {A} (l : list A) i x :
  i < length l -> nth_error (upd l i x) i = Some x.
Proof.
  revert i; induction l as [|a l IH]; intros [|i]; simpl; intros H; try lia; auto.
  apply IH; lia.
Qed.

Lemma nth_error_upd_ne {A} (l : list A) i j x :
  i <> j -> nth_error (upd l i x) j = nth_error l j.
Proof.
  revert i j; induction l as [|a l IH]; intros [|i] [|j] H; simpl; auto; try lia.
Qed.

Lemma nth_upd_eq {A} (l : list A) i x d : i < length l -> nth i (upd l i x) d = x.
Proof.
  revert i; induction l as [|a l IH]; intros [|i]; simpl; intros H; try lia; auto.
  apply IH; lia.
Qed.

Lemma nth_upd_ne {A} (l : list A) i j x d : i <> j -> nth j (upd l i x) d = nth j l d.
Proof.
  revert i j; induction l as [|a l IH]; intros [|i] [|j] H; simpl; auto; try lia.
Qed.

(** bytes *)
Definition byte_ok (b : N) : Prop := (b < 256)%N.
Definition bytes_ok (l : list N) : Prop := Forall byte_ok l.

(** shifts and masks as arithmetic *)
Lemma lor_add (a b n : N) : (b < 2 ^ n)%N -> N.lor (N.shiftl a n) b = (a * 2 ^ n + b)%N.
Proof.
  intros H.
  rewrite <- N.shiftl_mul_pow2. rewrite N.add_nocarry_lxor.
  - rewrite N.lxor_lor; auto.
    apply N.bits_inj_0; intros k. rewrite N.land_spec.
    destruct (N.lt_ge_cases k n).
    + rewrite N.shiftl_spec_low; auto.
    + replace (N.testbit b k) with false; [apply andb_false_r|].
      symmetry. destruct (N.eq_dec b 0) as [->|Hb]; [apply N.bits_0|].
      apply N.bits_above_log2. apply N.log2_lt_pow2 in H; lia.
  - apply N.bits_inj_0; intros k. rewrite N.land_spec.
    destruct (N.lt_ge_cases k n).
    + rewrite N.shiftl_spec_low; auto.
    + replace (N.testbit b k) with false; [apply andb_false_r|].
      symmetry. destruct (N.eq_dec b 0) as [->|Hb]; [apply N.bits_0|].
      apply N.bits_above_log2. apply N.log2_lt_pow2 in H; lia.
Qed.

Lemma lor_add_mul (a b n : N) : (b < 2 ^ n)%N -> N.lor (a * 2 ^ n) b = (a * 2 ^ n + b)%N.
Proof. intros H. rewrite <- N.shiftl_mul_pow2 at 1. apply lor_add; auto. Qed.

Lemma land_mod (a n : N) : N.land a (N.ones n) = (a mod 2 ^ n)%N.
Proof. apply N.land_ones. Qed.

(** finite sweeps lifted to quantified statements *)
Definition Nrange (n : nat) : list N := map N.of_nat (seq 0 n).
Lemma in_Nrange n (x : N) : (x < N.of_nat n)%N -> In x (Nrange n).
Proof.
  intros H. unfold Nrange. apply in_map_iff. exists (N.to_nat x). split; [lia|].
  apply in_seq. lia.
Qed.

Definition bytes_all : list N := Nrange 256.
Lemma in_bytes_all b : byte_ok b -> In b bytes_all.
Proof. intros H. apply in_Nrange. exact H. Qed.

Lemma sweep1 (P : N -> bool) :
  forallb P bytes_all = true -> forall b, byte_ok b -> P b = true.
Proof. intros H b Hb. rewrite forallb_forall in H. apply H, in_bytes_all, Hb. Qed.

Lemma sweep2 (P : N -> N -> bool) :
  forallb (fun a => forallb (P a) bytes_all) bytes_all = true ->
  forall a b, byte_ok a -> byte_ok b -> P a b = true.
Proof.
  intros H a b Ha Hb. rewrite forallb_forall in H.
  specialize (H a (in_bytes_all a Ha)). rewrite forallb_forall in H.
  apply H, in_bytes_all, Hb.
Qed.

(** keep bit operations folded under [cbn] *)
#[global] Arguments N.shiftr : simpl never.
#[global] Arguments N.shiftl : simpl never.
#[global] Arguments N.land : simpl never.
#[global] Arguments N.lor : simpl never.
#[global] Arguments N.lxor : simpl never.
#[global] Arguments N.testbit : simpl never.
#[global] Arguments N.div : simpl never.
#[global] Arguments N.modulo : simpl never.
#[global] Arguments N.pow : simpl never.
