(** Properties of thread hooks. *)
From Verif Require Import Common Hook_Spec Hook_Model Hook_Proof.

Definition nobody (a : nat) : bool := false.

(** C526: after every history of making, installing, uninstalling and deleting hooks
    the installed ones are those that were installed and not uninstalled since;
    no object that does not exist is touched; a thread that ends with an
    exception tells each of them once, the newest one first *)
Theorem hook_list : forall ops f, valid nobody ops -> length ops < f ->
  exists s, run f ops init = Ok s /\
    (forall h, In h (hooks ops) <-> exists x, mem s h = Some x /\ installed x = true) /\
    NoDup (hooks ops) /\ onExc f s = Ok (map EExc (hooks ops)).
Proof.
  intros ops f V L. destruct (hooks_state ops f V L) as (s & E & P & Q & I).
  exists s. split; auto. split; [|split; [exact (proj1 (proj2 I))|apply callExc_ok; auto]].
  intros h. split.
  - intros H. destruct (path_in _ _ _ _ P H) as (n & M). exists (mkHook true n). auto.
  - intros (x & M & J). destruct I as (_ & _ & _ & Z). exact (Z h x M J).
Qed.
Print Assumptions hook_list.
Definition history : list op := [New 1; New 2; New 3; Install 1; Install 2; Install 3; Install 2; Uninstall 2; New 4; Install 4; Install 2; Delete 3].
Example hook_list_example : valid nobody history /\ hooks history = [2; 4; 1] /\
  exists s, run 20 history init = Ok s /\ onExc 20 s = Ok [EExc 2; EExc 4; EExc 1].
Proof. split; [cbn; tauto|]. split; [reflexivity|]. eexists. split; reflexivity. Qed.

(** C527: when no handler throws, a new thread calls onThreadInit of all installed
    hooks in the order of installation, then its function, then onThreadExit in
    reverse order, or onThreadException when the function throws, and the thread
    that started it goes on *)
Theorem hook_thread : forall ops f throws, valid nobody ops -> length ops < f ->
  (forall h, In h (hooks ops) -> throws h = false) ->
  exists s, run f ops init = Ok s /\
    bootstrap throws f false s = Ok (map EInit (rev (hooks ops)) ++ EFn :: map EExit (hooks ops), true) /\
    bootstrap throws f true s = Ok (map EInit (rev (hooks ops)) ++ EFn :: map EExc (hooks ops), true).
Proof.
  intros ops f throws V L T. destruct (hooks_state ops f V L) as (s & E & P & Q & _).
  exists s. split; auto. unfold bootstrap, onInit, onExit, onExc.
  rewrite (callInit_all throws s (hooks ops)); auto. cbn [obind fst snd].
  rewrite (callExit_all throws s (hooks ops)); auto. rewrite (callExc_ok s (hooks ops)); auto.
Qed.
Print Assumptions hook_thread.
Example hook_thread_example : exists s, run 20 history init = Ok s /\
  bootstrap nobody 20 false s = Ok ([EInit 1; EInit 4; EInit 2; EFn; EExit 2; EExit 4; EExit 1], true).
Proof. eexists. split; reflexivity. Qed.

(** C528: when onThreadExit of a hook throws, the hooks installed before it, which have
    not had their onThreadExit, get onThreadException, nobody gets both *)
Theorem hook_exit_throws : forall ops f throws done h rest, valid nobody ops -> length ops < f ->
  hooks ops = done ++ h :: rest -> throws h = true -> (forall x, In x done -> throws x = false) ->
  exists s, run f ops init = Ok s /\
    onExit throws f s = Ok (map EExit (done ++ [h]) ++ map EExc rest, true).
Proof.
  intros ops f throws done h rest V L S Th T. destruct (hooks_state ops f V L) as (s & E & P & Q & _).
  exists s. split; auto. unfold onExit. rewrite S in P, Q.
  rewrite (callExit_throw throws s h rest Th done (chain s) f P Q T). rewrite map_app, <- app_assoc. reflexivity.
Qed.
Print Assumptions hook_exit_throws.
Example hook_exit_throws_example : exists s, run 20 history init = Ok s /\
  onExit (Nat.eqb 4) 20 s = Ok ([EExit 2; EExit 4; EExc 1], true) /\ hooks history = [2] ++ 4 :: [1].
Proof. eexists. do 2 (split; [reflexivity|]). reflexivity. Qed.

(** C529: when onThreadInit of a hook throws, onThreadException goes to the hooks that
    were not initialised, never to the initialised ones, which are not told at
    all: for every set of hooks this is not what the documentation says, unless
    the hook that throws is the only one *)
Theorem hook_init_throws_refuted : forall ops f throws newer h older, valid nobody ops -> length ops < f ->
  hooks ops = newer ++ h :: older -> throws h = true -> (forall x, In x older -> throws x = false) ->
  exists s, run f ops init = Ok s /\
    onInit throws f s = Ok (map EInit (rev older ++ [h]) ++ map EExc (rev newer), true) /\
    (newer ++ older <> [] -> map EInit (rev older ++ [h]) ++ map EExc (rev newer) <> docInit throws [] (rev (hooks ops))).
Proof.
  intros ops f throws newer h older V L S Th T. destruct (hooks_state ops f V L) as (s & E & P & Q & I).
  exists s. split; auto. unfold onInit. rewrite S in P, Q.
  rewrite (callInit_throw throws s h older Th T newer (chain s) f P Q). split.
  - rewrite map_app, <- app_assoc. reflexivity.
  - intros NE EQ. destruct I as (_ & N & _). rewrite S in EQ, N. rewrite rev_app_distr in EQ. cbn [rev] in EQ.
    rewrite map_app, <- !app_assoc in EQ. cbn [map app] in EQ.
    assert (D : forall todo done, (forall x, In x todo -> throws x = false) ->
              docInit throws done (todo ++ h :: rev newer) = map EInit todo ++ EInit h :: map EExc (rev todo ++ done)).
    { induction todo as [|x todo IH]; intros done Tt; cbn [docInit app map].
      - rewrite Th. reflexivity.
      - rewrite (Tt x) by (left; auto). rewrite IH by (intros; apply Tt; right; auto). cbn [rev].
        rewrite <- app_assoc. reflexivity. }
    rewrite D in EQ by (intros x Hx; apply T, in_rev; auto).
    apply app_inv_head in EQ. injection EQ as EQ. rewrite rev_involutive, app_nil_r in EQ.
    destruct newer as [|x newer].
    + destruct older; [apply NE; reflexivity|discriminate EQ].
    + destruct older as [|y older].
      * cbn [rev] in EQ. rewrite map_app in EQ. destruct (map EExc (rev newer)); discriminate EQ.
      * assert (X : In (EExc y) (map EExc (rev (x :: newer)))) by (rewrite EQ; left; auto).
        apply in_map_iff in X. destruct X as (z & Z & Iz). injection Z as ->. apply in_rev in Iz.
        assert (M : NoDup ((x :: newer) ++ h :: y :: older)) by exact N.
        replace ((x :: newer) ++ h :: y :: older) with (((x :: newer) ++ [h]) ++ y :: older) in M by (rewrite <- app_assoc; reflexivity).
        apply NoDup_remove in M. destruct M as (_ & M). apply M. rewrite !in_app_iff. auto.
Qed.
Print Assumptions hook_init_throws_refuted.
Example hook_init_throws_example : exists s, run 20 history init = Ok s /\
  onInit (Nat.eqb 4) 20 s = Ok ([EInit 1; EInit 4; EExc 2], true) /\
  docInit (Nat.eqb 4) [] (rev (hooks history)) = [EInit 1; EInit 4; EExc 1].
Proof. eexists. do 2 (split; [reflexivity|]). reflexivity. Qed.

(** C530: when onThreadInit of any installed hook throws, the function of the thread is
    not called and Thread::start never returns: nobody wakes its caller up *)
Theorem hook_start_hangs_refuted : forall ops f throws fnThrows, valid nobody ops -> length ops < f ->
  (exists h, In h (hooks ops) /\ throws h = true) ->
  exists s ev, run f ops init = Ok s /\ bootstrap throws f fnThrows s = Ok (ev, false) /\ ~ In EFn ev.
Proof.
  intros ops f throws fnThrows V L (h0 & Ih & Th0). destruct (hooks_state ops f V L) as (s & E & P & Q & _).
  assert (K : exists newer h older, hooks ops = newer ++ h :: older /\ throws h = true /\ forall x, In x older -> throws x = false).
  { clear - Ih Th0. induction (hooks ops) as [|x l IH]; [destruct Ih|].
    destruct (existsb throws l) eqn:X.
    - destruct (proj1 (existsb_exists _ _) X) as (z & Iz & Tz).
      assert (R : exists newer h older, l = newer ++ h :: older /\ throws h = true /\ forall x, In x older -> throws x = false).
      { clear - X. induction l as [|y l IHl]; [discriminate X|]. cbn in X. destruct (existsb throws l) eqn:Y.
        - destruct (IHl eq_refl) as (n & h & o & -> & A). exists (y :: n), h, o. split; auto.
        - exists [], y, l. rewrite orb_false_r in X. split; auto. split; auto. intros x Hx.
          destruct (throws x) eqn:Z; auto. rewrite (proj2 (existsb_exists throws l)) in Y; [discriminate Y|eauto]. }
      destruct R as (n & h & o & -> & A). exists (x :: n), h, o. split; auto.
    - exists [], x, l. split; auto.
      assert (F : forall y, In y l -> throws y = false).
      { intros y Hy. destruct (throws y) eqn:Z; auto. rewrite (proj2 (existsb_exists throws l)) in X; [discriminate X|eauto]. }
      split; auto. destruct Ih as [ -> |I]; auto. rewrite (F _ I) in Th0. discriminate Th0. }
  destruct K as (newer & h & older & S & Th & T). rewrite S in P, Q.
  exists s. unfold bootstrap, onInit. rewrite (callInit_throw throws s h older Th T newer (chain s) f P Q).
  eexists. split; auto. split; [reflexivity|]. cbn [fst]. rewrite in_app_iff. intros [H|[H|H]].
  - apply in_map_iff in H. destruct H as (x & H & _). discriminate H.
  - discriminate H.
  - apply in_map_iff in H. destruct H as (x & H & _). discriminate H.
Qed.
Print Assumptions hook_start_hangs_refuted.
Example hook_start_hangs_example : exists s, run 20 history init = Ok s /\
  bootstrap (Nat.eqb 2) 20 false s = Ok ([EInit 1; EInit 4; EInit 2], false).
Proof. eexists. split; reflexivity. Qed.
