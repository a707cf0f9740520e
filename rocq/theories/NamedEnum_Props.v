(** Properties of tables of named values. *)
From Verif Require Import Common NamedEnum_Spec NamedEnum_Model NamedEnum_Proof.

(** C397: a name of the table, in any order and number of definitions, gives a value defined with it; another name gives
    "not found" by find and an exception by operator[]. *)
Theorem ne_find : forall l, exists e, construct l = Ok e /\ forall s,
  (has_name l s -> exists v, In (v, s) l /\ find e s = Ok (Some v) /\ valueOf e s = Ok v) /\ (~ has_name l s -> find e s = Ok None /\ valueOf e s = Throw).
Proof.
  intros l. destruct (construct_ok l) as [e [E K]]. exists e. split; [auto|]. intros s. destruct (find_ok l e s K) as [r [A B]]. unfold valueOf. rewrite A. cbn [obind]. destruct r as [v|].
  - split; [eauto|]. intros Q. elim Q. now exists v.
  - split; [intros Q; now elim B|auto].
Qed.
Print Assumptions ne_find.
(** C398: a value of the table gives a name defined with it, another value gives the empty string. *)
Theorem ne_name : forall l, exists e, construct l = Ok e /\ forall v,
  (has_value l v -> exists s, In (v, s) l /\ nameOf e v = Ok s) /\ (~ has_value l v -> nameOf e v = Ok []).
Proof.
  intros l. destruct (construct_ok l) as [e [E K]]. exists e. split; [auto|]. intros v. destruct (name_ok l e v K) as [s [A [B C]]]. split.
  - intros H. eauto.
  - intros H. now rewrite <- (C H).
Qed.
Print Assumptions ne_name.
(** C399: if names and values do not repeat, the lookups are inverse to each other. *)
Theorem ne_inverse : forall l, NoDup (map fst l) -> NoDup (map snd l) -> exists e, construct l = Ok e /\ forall v s, In (v, s) l -> valueOf e s = Ok v /\ nameOf e v = Ok s.
Proof.
  intros l N1 N2. assert (U1 : forall (l : list defn) v s s', NoDup (map fst l) -> In (v, s) l -> In (v, s') l -> s = s').
  { clear. induction l as [|[a b] l IH]; intros v s s' N I J; [easy|]. cbn in N. inversion N as [|? ? NI N']; subst. destruct I as [I|I], J as [J|J]; [congruence| | |eauto].
    - injection I as -> ->. elim NI. now apply (in_map fst) in J.
    - injection J as -> ->. elim NI. now apply (in_map fst) in I. }
  assert (U2 : forall (l : list defn) v v' s, NoDup (map snd l) -> In (v, s) l -> In (v', s) l -> v = v').
  { clear. induction l as [|[a b] l IH]; intros v v' s N I J; [easy|]. cbn in N. inversion N as [|? ? NI N']; subst. destruct I as [I|I], J as [J|J]; [congruence| | |eauto].
    - injection I as -> ->. elim NI. now apply (in_map snd) in J.
    - injection J as -> ->. elim NI. now apply (in_map snd) in I. }
  destruct (construct_ok l) as [e [E K]]. exists e. split; [auto|]. intros v s I. split.
  - destruct (find_ok l e s K) as [[v'|] [A B]]; unfold valueOf; rewrite A; cbn [obind]; [|elim B; now exists v]. now rewrite (U2 _ _ _ _ N2 I B).
  - destruct (name_ok l e v K) as [s' [A [B _]]]. assert (H : has_value l v) by now exists s. rewrite A. rewrite (U1 _ _ _ _ N1 I (B H)). reflexivity.
Qed.
Print Assumptions ne_inverse.
(** C400: toString gives the names in the order of definition, separated. *)
Theorem ne_tostring : forall l, exists e, construct l = Ok e /\ forall sep, toString e sep = joined sep l.
Proof. intros l. destruct (construct_ok l) as [e [E K]]. exists e. split; [auto|]. intros. rewrite toString_ok. now rewrite (ok_items _ _ K). Qed.
Print Assumptions ne_tostring.
(** definitions in no order, one name is the beginning of another *)
Example ne_ex :
  let l := [(5, [99; 98]); (-2, [97]); (9, []); (3, [99; 98; 97]); (4, [122])]%Z in
  exists e, construct l = Ok e /\ NoDup (map fst l) /\ NoDup (map snd l) /\ map (valueOf e) (map snd l) = map (fun d => Ok (fst d)) l
  /\ map (nameOf e) (map fst l) = map (fun d => Ok (snd d)) l /\ valueOf e [99]%Z = Throw /\ nameOf e 0 = Ok [] /\ toString e [44]%Z = [99; 98; 44; 97; 44; 44; 99; 98; 97; 44; 122]%Z.
Proof.
  cbv zeta. eexists. split; [vm_compute; reflexivity|]. split; [|split; [|vm_compute; repeat split]].
  - cbn. repeat constructor; cbn; intuition discriminate.
  - cbn. repeat constructor; cbn; intuition discriminate.
Qed.
