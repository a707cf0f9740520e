(** The deque represents a list, written from back to front. *)
From Verif Require Import Common Deque_Model Deque_Spec.

Lemma mod_case a s : 0 < s -> a < 2 * s -> a mod s = if a <? s then a else a - s.
Proof.
  intros Hs H. destruct (Nat.ltb_spec a s); [apply Nat.mod_small; auto|].
  symmetry. apply (Nat.mod_unique a s 1); lia.
Qed.

Section Rep.
  Context {A : Type}.
  Implicit Types (d : deque A) (l : list A).

  Record rep d l : Prop := mkRep {
    rep_len : length l <= size d;
    rep_nil : l = [] -> dhead d = 0 /\ dtail d = 0;
    rep_pos : l <> [] -> dtail d < size d /\ dhead d = (dtail d + length l - 1) mod size d + 1;
    rep_cell : forall i, i < size d -> nth_error (mem d) ((dtail d + i) mod size d) = Some (nth_error l i) }.

  Lemma nil_or l : {l = []} + {l <> [] /\ 0 < length l}.
  Proof. destruct l; [left; reflexivity|right; split; [discriminate|cbn; lia]]. Qed.

  Lemma tail_lt d l : rep d l -> 0 < size d -> dtail d < size d.
  Proof. intros R H. destruct (nil_or l) as [E|[N _]]; [pose proof (rep_nil _ _ R E)|pose proof (rep_pos _ _ R N)]; lia. Qed.

  Lemma head_cases d l : rep d l -> l <> [] ->
    0 < length l /\ dtail d < size d /\ length l <= size d /\
    ((dtail d + length l <= size d /\ dhead d = dtail d + length l)
     \/ (size d < dtail d + length l /\ dhead d = dtail d + length l - size d)).
  Proof.
    intros R N. destruct (rep_pos _ _ R N) as [T H]. pose proof (rep_len _ _ R).
    assert (0 < length l) by (destruct l; [congruence|cbn; lia]).
    rewrite mod_case in H by lia. destruct (Nat.ltb_spec (dtail d + length l - 1) (size d)); lia.
  Qed.

  Lemma dlength_ok d l : rep d l -> dlength d = length l.
  Proof.
    intros R. unfold dlength. destruct (nil_or l) as [E|[N _]].
    - destruct (rep_nil _ _ R E) as [-> ->]. subst l. reflexivity.
    - destruct (head_cases d l R N) as (P & T & L & [[H1 ->]|[H1 ->]]).
      + destruct (Nat.eqb_spec (dtail d + length l) 0); [lia|]. cbn [negb andb].
        destruct (Nat.leb_spec (dtail d + length l) (dtail d)); lia.
      + destruct (Nat.eqb_spec (dtail d + length l - size d) 0); [lia|]. cbn [negb andb].
        destruct (Nat.leb_spec (dtail d + length l - size d) (dtail d)); lia.
  Qed.

  Lemma dempty_ok d l : rep d l -> dempty d = match l with [] => true | _ => false end.
  Proof.
    intros R. unfold dempty. destruct (nil_or l) as [E|[N _]].
    - destruct (rep_nil _ _ R E) as [-> _]. subst l. reflexivity.
    - destruct (head_cases d l R N) as (P & T & L & C). destruct l; [congruence|].
      destruct (Nat.eqb_spec (dhead d) 0); auto; lia.
  Qed.

  Lemma rep_new : rep dempty_new [].
  Proof. constructor; cbn; auto; [congruence|]. intros; lia. Qed.

  (** the cell at position [j] holds item number [(j - tail) mod size] *)
  Lemma cell_at d l j : rep d l -> j < size d ->
    nth_error (mem d) j = Some (nth_error l (if dtail d <=? j then j - dtail d else j + size d - dtail d)).
  Proof.
    intros R H. pose proof (tail_lt d l R ltac:(lia)) as T.
    rewrite <- (rep_cell _ _ R) by (destruct (Nat.leb_spec (dtail d) j); lia).
    f_equal. rewrite mod_case by (destruct (Nat.leb_spec (dtail d) j); lia).
    destruct (Nat.leb_spec (dtail d) j); match goal with |- context [?a <? ?b] => destruct (Nat.ltb_spec a b) end; lia.
  Qed.

  Lemma modIndex_ok i s : 0 < s -> modIndex i s = Ok (i mod s).
  Proof. intros H. unfold modIndex. destruct (Nat.eqb_spec s 0); [lia|reflexivity]. Qed.

  (** building a representation from cell contents *)
  Lemma mk_rep m h t l : length l <= length m -> (l = [] -> h = 0 /\ t = 0) ->
    (l <> [] -> t < length m /\ h = (t + length l - 1) mod length m + 1) -> (0 < length m -> t < length m) ->
    (forall j, j < length m -> nth_error m j = Some (nth_error l (if t <=? j then j - t else j + length m - t))) ->
    rep (mkDeque m h t) l.
  Proof.
    intros H1 H2 H3 H4 H5. constructor; cbn [mem dhead dtail size]; unfold size; cbn [mem]; auto.
    intros i Hi. assert (T : t < length m) by (apply H4; lia).
    rewrite mod_case by lia. destruct (Nat.ltb_spec (t + i) (length m)).
    - rewrite H5 by lia. destruct (Nat.leb_spec t (t + i)); [|lia]. do 2 f_equal. lia.
    - rewrite H5 by lia. destruct (Nat.leb_spec t (t + i - length m)); [lia|]. do 2 f_equal. lia.
  Qed.

  Lemma nth_upd (m : cells A) i j x : nth_error (upd m i x) j =
    if j =? i then (if i <? length m then Some x else None) else nth_error m j.
  Proof.
    destruct (Nat.eqb_spec j i) as [->|N].
    - destruct (Nat.ltb_spec i (length m)); [apply nth_error_upd_eq; auto|].
      apply nth_error_None. rewrite upd_length. lia.
    - apply nth_error_upd_ne. auto.
  Qed.

  (** ** reallocation *)
  Lemma moveItems_ok d l : rep d l -> 0 < size d -> forall c i new, i + c = length l -> length l <= length new ->
    (forall j, j < length new -> nth_error new j = Some (if j <? i then nth_error l j else None)) ->
    exists new', moveItems (mem d) new (size d) (dtail d) i c = Ok new' /\ length new' = length new /\
      forall j, j < length new -> nth_error new' j = Some (nth_error l j).
  Proof.
    intros R Hs. induction c as [|c IH]; intros i new E L C; cbn [moveItems].
    - exists new. repeat split; auto. intros j Hj. rewrite C by auto. destruct (Nat.ltb_spec j i); [reflexivity|].
      f_equal. symmetry. apply nth_error_None. lia.
    - rewrite modIndex_ok by auto. cbn [obind].
      pose proof (rep_len _ _ R). unfold readCell at 1. rewrite (rep_cell _ _ R) by lia.
      destruct (nth_error l i) as [x|] eqn:Ex; [|apply nth_error_None in Ex; lia]. cbn [obind].
      unfold construct. rewrite C by lia. rewrite Nat.ltb_irrefl. cbn [obind].
      destruct (IH (S i) (upd new i (Some x))) as (new' & E1 & E2 & E3); try lia.
      + rewrite upd_length. lia.
      + intros j Hj. rewrite upd_length in Hj. rewrite nth_upd. destruct (Nat.eqb_spec j i) as [->|N].
        * destruct (Nat.ltb_spec i (length new)); [|lia]. destruct (Nat.ltb_spec i (S i)); [|lia]. rewrite Ex. reflexivity.
        * rewrite C by auto. destruct (Nat.ltb_spec j i), (Nat.ltb_spec j (S i)); auto; lia.
      + exists new'. rewrite upd_length in *. auto.
  Qed.

  Lemma nth_repeat (x : option A) n j : j < n -> nth_error (repeat x n) j = Some x.
  Proof.
    intros H. rewrite nth_error_nth' with (d := x) by (rewrite repeat_length; auto).
    f_equal. apply nth_repeat.
  Qed.

  Lemma internalResize_ok d l n : rep d l -> length l <= n -> 0 < n ->
    exists d', internalResize d n (length l) = Ok d' /\ rep d' l /\ size d' = n.
  Proof.
    intros R L P. unfold internalResize.
    assert (M : exists new', moveItems (mem d) (repeat None n) (size d) (dtail d) 0 (length l) = Ok new' /\ length new' = n /\
      forall j, j < n -> nth_error new' j = Some (nth_error l j)).
    { destruct (Nat.eq_dec (size d) 0) as [Z|Z].
      - pose proof (rep_len _ _ R). assert (l = []) by (destruct l; auto; cbn in *; lia). subst l. cbn [length moveItems].
        exists (repeat None n). rewrite repeat_length. repeat split; auto. intros j Hj. rewrite nth_repeat by auto.
        destruct j; reflexivity.
      - destruct (moveItems_ok d l R ltac:(lia) (length l) 0 (repeat None n)) as (new' & E1 & E2 & E3); rewrite ?repeat_length in *; eauto.
        intros j Hj. apply nth_repeat. auto. }
    destruct M as (m & E1 & E2 & E3). rewrite E1. cbn [obind]. eexists. split; [reflexivity|]. split; [|exact E2].
    apply mk_rep; try lia.
    - intros ->. auto.
    - intros N. split; [lia|]. assert (0 < length l) by (destruct l; [congruence|cbn; lia]).
      rewrite Nat.mod_small by lia. lia.
    - intros j Hj. rewrite E3 by lia. cbn [Nat.leb]. rewrite Nat.sub_0_r. reflexivity.
  Qed.

  Lemma expand_ok d l : rep d l -> exists d', (if isFull d then tryExpand d else Ok d) = Ok d' /\ rep d' l /\ length l < size d'.
  Proof.
    intros R. unfold isFull. rewrite (dlength_ok d l R). pose proof (rep_len _ _ R).
    destruct (Nat.eqb_spec (length l) (size d)) as [E|N].
    - unfold tryExpand. rewrite (dlength_ok d l R). set (n := if length l =? 0 then 1 else length l + (length l + 1) / 2).
      assert (Hn : length l < n).
      { unfold n. destruct (Nat.eqb_spec (length l) 0); [lia|].
        pose proof (Nat.div_le_lower_bound (length l + 1) 2 1 ltac:(lia) ltac:(lia)). lia. }
      unfold reserve. rewrite (dlength_ok d l R). destruct (Nat.ltb_spec (length l) n); [|lia].
      destruct (internalResize_ok d l n R) as (d' & E1 & R' & S'); try lia.
      rewrite E1. cbn [obind]. exists d'. split; [reflexivity|split; [exact R'|lia]].
    - exists d. split; [reflexivity|split; [exact R|lia]].
  Qed.

  (** ** the operations *)
  Lemma pushFront_ok d l x : rep d l -> exists d', pushFront d x = Ok d' /\ rep d' (l ++ [x]).
  Proof.
    intros R0. unfold pushFront. destruct (expand_ok d l R0) as (d1 & E & R & L). rewrite E. cbn [obind]. clear E R0 d.
    rename d1 into d. rewrite modIndex_ok by lia. cbn [obind].
    pose proof (tail_lt d l R ltac:(lia)) as T.
    set (a := dhead d mod size d).
    assert (Ha : a = if dtail d + length l <? size d then dtail d + length l else dtail d + length l - size d).
    { unfold a. destruct (nil_or l) as [El|[N _]].
      - destruct (rep_nil _ _ R El) as [-> ->]. subst l. cbn [length] in *. rewrite Nat.mod_small by lia.
        destruct (Nat.ltb_spec (0 + 0) (size d)); lia.
      - destruct (head_cases d l R N) as (P & _ & _ & [[H1 ->]|[H1 ->]]).
        + rewrite mod_case by lia. reflexivity.
        + rewrite mod_case by lia. destruct (Nat.ltb_spec (dtail d + length l - size d) (size d)), (Nat.ltb_spec (dtail d + length l) (size d)); lia. }
    assert (Hlt : a < size d) by (rewrite Ha; destruct (Nat.ltb_spec (dtail d + length l) (size d)); lia).
    unfold construct. rewrite (cell_at d l a R Hlt).
    replace (if dtail d <=? a then a - dtail d else a + size d - dtail d) with (length l).
    2:{ rewrite Ha. destruct (Nat.ltb_spec (dtail d + length l) (size d)).
        - destruct (Nat.leb_spec (dtail d) (dtail d + length l)); lia.
        - destruct (Nat.leb_spec (dtail d) (dtail d + length l - size d)); lia. }
    replace (nth_error l (length l)) with (@None A) by (symmetry; apply nth_error_None; lia).
    cbn [obind]. eexists. split; [reflexivity|]. unfold size in *.
    apply mk_rep; rewrite ?upd_length, ?app_length; cbn [length]; try lia.
    - intros E. destruct l; discriminate.
    - intros _. split; [lia|]. rewrite Ha. rewrite mod_case by lia.
      replace (dtail d + (length l + 1) - 1) with (dtail d + length l) by lia. reflexivity.
    - intros j Hj. rewrite nth_upd. destruct (Nat.eqb_spec j a) as [->|N].
      + destruct (Nat.ltb_spec a (length (mem d))); [|lia]. f_equal.
        replace (if dtail d <=? a then a - dtail d else a + length (mem d) - dtail d) with (length l).
        2:{ rewrite Ha. destruct (Nat.ltb_spec (dtail d + length l) (length (mem d))).
            - destruct (Nat.leb_spec (dtail d) (dtail d + length l)); lia.
            - destruct (Nat.leb_spec (dtail d) (dtail d + length l - length (mem d))); lia. }
        rewrite nth_error_app2, Nat.sub_diag by lia. reflexivity.
      + rewrite (cell_at d l j R Hj). unfold size. f_equal.
        set (k := if dtail d <=? j then j - dtail d else j + length (mem d) - dtail d).
        destruct (Nat.lt_trichotomy k (length l)) as [K|[K|K]].
        * rewrite nth_error_app1 by auto. reflexivity.
        * exfalso. apply N. rewrite Ha. unfold k in K.
          destruct (Nat.leb_spec (dtail d) j), (Nat.ltb_spec (dtail d + length l) (length (mem d))); lia.
        * rewrite (proj2 (nth_error_None l k)) by lia. symmetry. apply nth_error_None. rewrite app_length. cbn. lia.
  Qed.

  Lemma pushBack_ok d l x : rep d l -> exists d', pushBack d x = Ok d' /\ rep d' (x :: l).
  Proof.
    intros R0. unfold pushBack. destruct (expand_ok d l R0) as (d1 & E & R & L). rewrite E. cbn [obind]. clear E R0 d.
    rename d1 into d. rewrite modIndex_ok by lia. cbn [obind].
    pose proof (tail_lt d l R ltac:(lia)) as T.
    set (a := (dtail d + size d - 1) mod size d).
    assert (Ha : a = if dtail d =? 0 then size d - 1 else dtail d - 1).
    { unfold a. rewrite mod_case by lia. destruct (Nat.eqb_spec (dtail d) 0), (Nat.ltb_spec (dtail d + size d - 1) (size d)); lia. }
    assert (Hlt : a < size d) by (rewrite Ha; destruct (Nat.eqb_spec (dtail d) 0); lia).
    unfold construct. rewrite (cell_at d l a R Hlt).
    replace (nth_error l _) with (@None A).
    2:{ symmetry. apply nth_error_None. rewrite Ha. destruct (Nat.eqb_spec (dtail d) 0).
        - destruct (Nat.leb_spec (dtail d) (size d - 1)); lia.
        - destruct (Nat.leb_spec (dtail d) (dtail d - 1)); lia. }
    cbn [obind]. eexists. split; [reflexivity|]. unfold size in *.
    apply mk_rep; rewrite ?upd_length; cbn [length]; try lia.
    - discriminate.
    - intros _. split; [lia|]. rewrite mod_case by lia.
      destruct (nil_or l) as [El|[N _]].
      + destruct (rep_nil _ _ R El) as [Eh Et]. rewrite Eh. cbn [Nat.eqb]. rewrite Ha, Et. cbn [Nat.eqb]. subst l. cbn [length].
        match goal with |- context [?u <? ?v] => destruct (Nat.ltb_spec u v) end; lia.
      + destruct (head_cases d l R N) as (P & _ & _ & C). unfold size in C. rewrite Ha.
        destruct (Nat.eqb_spec (dhead d) 0); [lia|]. destruct (Nat.eqb_spec (dtail d) 0);
        match goal with |- context [?u <? ?v] => destruct (Nat.ltb_spec u v) end; lia.
    - intros j Hj. rewrite nth_upd. destruct (Nat.eqb_spec j a) as [->|N].
      + destruct (Nat.ltb_spec a (length (mem d))); [|lia]. destruct (Nat.leb_spec a a); [|lia].
        rewrite Nat.sub_diag. reflexivity.
      + rewrite (cell_at d l j R Hj). unfold size. f_equal.
        set (k := if dtail d <=? j then j - dtail d else j + length (mem d) - dtail d).
        replace (if a <=? j then j - a else j + length (mem d) - a) with (S k).
        2:{ unfold k. rewrite Ha in *. destruct (Nat.eqb_spec (dtail d) 0), (Nat.leb_spec (dtail d) j);
            match goal with |- context [?u <=? ?v] => destruct (Nat.leb_spec u v) end; lia. }
        reflexivity.
  Qed.

  Lemma nth_error_last l x : nth_error (l ++ [x]) (length l) = Some x.
  Proof. rewrite nth_error_app2, Nat.sub_diag by lia. reflexivity. Qed.

  Lemma front_index d l : rep d l -> l <> [] -> dhead d - 1 < size d /\
    (if dtail d <=? dhead d - 1 then dhead d - 1 - dtail d else dhead d - 1 + size d - dtail d) = length l - 1.
  Proof.
    intros R N. destruct (head_cases d l R N) as (P & T & L & [[H1 E]|[H1 E]]); rewrite E;
      match goal with |- context [?u <=? ?v] => destruct (Nat.leb_spec u v) end; lia.
  Qed.

  Lemma getFront_ok d l x : rep d (l ++ [x]) -> getFront d = Ok x.
  Proof.
    intros R. unfold getFront. rewrite (dempty_ok d _ R).
    assert (N : l ++ [x] <> []) by (destruct l; discriminate).
    destruct (front_index d _ R N) as [L I].
    replace (match l ++ [x] with [] => true | _ => false end) with false by (destruct l; reflexivity).
    unfold readCell. rewrite (cell_at d _ _ R L), I, app_length. cbn [length].
    replace (length l + 1 - 1) with (length l) by lia. rewrite nth_error_last. reflexivity.
  Qed.

  Lemma getBack_ok d l x : rep d (x :: l) -> getBack d = Ok x.
  Proof.
    intros R. unfold getBack. rewrite (dempty_ok d _ R).
    destruct (head_cases d _ R ltac:(discriminate)) as (P & T & L & _).
    unfold readCell. rewrite (cell_at d _ _ R T). destruct (Nat.leb_spec (dtail d) (dtail d)); [|lia].
    rewrite Nat.sub_diag. reflexivity.
  Qed.

  Lemma popFront_ok d l x : rep d (l ++ [x]) -> exists d', popFront d = Ok d' /\ rep d' l.
  Proof.
    intros R. unfold popFront. rewrite (dempty_ok d _ R).
    assert (N : l ++ [x] <> []) by (destruct l; discriminate).
    replace (match l ++ [x] with [] => true | _ => false end) with false by (destruct l; reflexivity).
    destruct (front_index d _ R N) as [L I].
    destruct (head_cases d _ R N) as (P & T & Len & C). rewrite app_length in *. cbn [length] in *.
    assert (E : (if dhead d - 1 =? dtail d then Ok (0, 0) else let! i := modIndex (dhead d - 1 + size d - 1) (size d) in Ok (i + 1, dtail d))
      = Ok (if length l =? 0 then (0, 0) else ((dtail d + length l - 1) mod size d + 1, dtail d))).
    { destruct (Nat.eqb_spec (length l) 0) as [Z|Z].
      - destruct (Nat.eqb_spec (dhead d - 1) (dtail d)); [reflexivity|lia].
      - destruct (Nat.eqb_spec (dhead d - 1) (dtail d)); [lia|].
        rewrite modIndex_ok by lia. cbn [obind]. rewrite !mod_case by lia.
        repeat match goal with |- context [?u <? ?v] => destruct (Nat.ltb_spec u v) end; do 2 f_equal; lia. }
    rewrite E. clear E. cbn [obind].
    unfold destroy. rewrite (cell_at d _ _ R L), I.
    replace (length l + 1 - 1) with (length l) by lia. rewrite nth_error_last. cbn [obind].
    destruct (if length l =? 0 then (0, 0) else ((dtail d + length l - 1) mod size d + 1, dtail d)) as [h t] eqn:Eht.
    eexists. split; [reflexivity|]. destruct (Nat.eqb_spec (length l) 0) as [Z|Z].
    - injection Eht as <- <-. destruct l; [|cbn in Z; lia]. cbn [length app] in *.
      apply mk_rep; rewrite ?upd_length; cbn [length]; try lia; auto; [congruence|].
      intros j Hj. rewrite nth_upd. cbn [Nat.leb]. rewrite Nat.sub_0_r.
      replace (nth_error [] j) with (@None A) by (destruct j; reflexivity).
      destruct (Nat.eqb_spec j (dhead d - 1)); [destruct (Nat.ltb_spec (dhead d - 1) (length (mem d))); [reflexivity|unfold size in *; lia]|].
      rewrite (cell_at d _ _ R Hj). f_equal. apply nth_error_None. cbn [length]. unfold size in *.
      match goal with |- context [?u <=? ?v] => destruct (Nat.leb_spec u v) end; lia.
    - injection Eht as <- <-. unfold size in *.
      apply mk_rep; rewrite ?upd_length; cbn [length]; try lia.
      + intros ->. cbn in Z. lia.
      + intros j Hj. rewrite nth_upd. destruct (Nat.eqb_spec j (dhead d - 1)) as [->|Nj].
        * destruct (Nat.ltb_spec (dhead d - 1) (length (mem d))); [|lia]. f_equal. symmetry. apply nth_error_None. lia.
        * rewrite (cell_at d _ _ R Hj). unfold size. f_equal.
          set (k := if dtail d <=? j then j - dtail d else j + length (mem d) - dtail d) in *.
          destruct (Nat.lt_trichotomy k (length l)) as [K|[K|K]].
          -- rewrite nth_error_app1 by auto. reflexivity.
          -- exfalso. apply Nj. unfold k in K. destruct (Nat.leb_spec (dtail d) j); lia.
          -- rewrite (proj2 (nth_error_None l k)) by lia. apply nth_error_None. rewrite app_length. cbn. lia.
  Qed.

  Lemma popBack_ok d l x : rep d (x :: l) -> exists d', popBack d = Ok d' /\ rep d' l.
  Proof.
    intros R. unfold popBack. rewrite (dempty_ok d _ R).
    destruct (head_cases d _ R ltac:(discriminate)) as (P & T & Len & C). cbn [length] in *.
    assert (E : (if dhead d =? dtail d + 1 then Ok (0, 0) else let! i := modIndex (dtail d + 1) (size d) in Ok (dhead d, i))
      = Ok (if length l =? 0 then (0, 0) else (dhead d, if dtail d + 1 <? size d then dtail d + 1 else 0))).
    { destruct (Nat.eqb_spec (length l) 0) as [Z|Z].
      - destruct (Nat.eqb_spec (dhead d) (dtail d + 1)); [reflexivity|lia].
      - destruct (Nat.eqb_spec (dhead d) (dtail d + 1)); [lia|].
        rewrite modIndex_ok by lia. cbn [obind]. rewrite !mod_case by lia.
        repeat match goal with |- context [?u <? ?v] => destruct (Nat.ltb_spec u v) end; do 2 f_equal; lia. }
    rewrite E. clear E. cbn [obind].
    unfold destroy. rewrite (cell_at d _ _ R T). destruct (Nat.leb_spec (dtail d) (dtail d)); [|lia].
    rewrite Nat.sub_diag. cbn [nth_error obind].
    destruct (if length l =? 0 then (0, 0) else (dhead d, if dtail d + 1 <? size d then dtail d + 1 else 0)) as [h t] eqn:Eht.
    eexists. split; [reflexivity|]. destruct (Nat.eqb_spec (length l) 0) as [Z|Z].
    - injection Eht as <- <-. destruct l; [|cbn in Z; lia]. cbn [length app] in *.
      apply mk_rep; rewrite ?upd_length; cbn [length]; try lia; auto; [congruence|].
      intros j Hj. rewrite nth_upd. cbn [Nat.leb]. rewrite Nat.sub_0_r.
      replace (nth_error [] j) with (@None A) by (destruct j; reflexivity).
      destruct (Nat.eqb_spec j (dtail d)); [destruct (Nat.ltb_spec (dtail d) (length (mem d))); [reflexivity|unfold size in *; lia]|].
      rewrite (cell_at d _ _ R Hj). f_equal. apply nth_error_None. cbn [length]. unfold size in *.
      match goal with |- context [?u <=? ?v] => destruct (Nat.leb_spec u v) end; lia.
    - injection Eht as <- <-. unfold size in *.
      apply mk_rep; rewrite ?upd_length; cbn [length]; try lia.
      + intros ->. cbn in Z. lia.
      + intros _. split; [destruct (Nat.ltb_spec (dtail d + 1) (length (mem d))); lia|].
        destruct (Nat.ltb_spec (dtail d + 1) (length (mem d))); rewrite mod_case by lia;
        match goal with |- context [?u <? ?v] => destruct (Nat.ltb_spec u v) end; lia.
      + destruct (Nat.ltb_spec (dtail d + 1) (length (mem d))); lia.
      + intros j Hj. rewrite nth_upd. destruct (Nat.eqb_spec j (dtail d)) as [->|Nj].
        * destruct (Nat.ltb_spec (dtail d) (length (mem d))); [|lia]. f_equal. symmetry. apply nth_error_None.
          destruct (Nat.ltb_spec (dtail d + 1) (length (mem d)));
          match goal with |- context [?u <=? ?v] => destruct (Nat.leb_spec u v) end; lia.
        * rewrite (cell_at d _ _ R Hj). unfold size. f_equal.
          set (k := if dtail d <=? j then j - dtail d else j + length (mem d) - dtail d) in *.
          match goal with |- _ = nth_error l ?v => replace k with (S v) end; [reflexivity|].
          unfold k. destruct (Nat.ltb_spec (dtail d + 1) (length (mem d))), (Nat.leb_spec (dtail d) j);
          match goal with |- context [?u <=? ?v] => destruct (Nat.leb_spec u v) end; lia.
  Qed.

  Lemma reserve_ok d l n : rep d l -> exists d', reserve d n = Ok (length l <? n, d') /\ rep d' l.
  Proof.
    intros R. unfold reserve. rewrite (dlength_ok d l R). destruct (Nat.ltb_spec (length l) n); [|eauto].
    destruct (internalResize_ok d l n R) as (d' & E1 & R' & _); try lia. rewrite E1. cbn [obind]. eauto.
  Qed.

  Lemma dat_ok d l i : rep d l -> dat d i = match nth_error l i with Some x => Ok x | None => Throw end.
  Proof.
    intros R. unfold dat. rewrite (dlength_ok d l R). pose proof (rep_len _ _ R).
    destruct (Nat.leb_spec (length l) i) as [L|L].
    - rewrite (proj2 (nth_error_None l i)) by auto. reflexivity.
    - rewrite modIndex_ok by lia. cbn [obind]. unfold readCell. rewrite Nat.add_comm, (rep_cell _ _ R) by lia.
      destruct (nth_error l i) eqn:E; [reflexivity|]. apply nth_error_None in E. lia.
  Qed.

  Lemma dset_ok d l i x : rep d l -> i < length l -> exists d', dset d i x = Ok d' /\ rep d' (upd l i x).
  Proof.
    intros R L. unfold dset. rewrite (dlength_ok d l R). pose proof (rep_len _ _ R).
    destruct (Nat.leb_spec (length l) i); [lia|]. rewrite modIndex_ok by lia. cbn [obind].
    unfold readCell. rewrite Nat.add_comm, (rep_cell _ _ R) by lia.
    destruct (nth_error l i) as [y|] eqn:E; [|apply nth_error_None in E; lia]. cbn [obind].
    eexists. split; [reflexivity|]. assert (N : l <> []) by (intros ->; cbn in L; lia).
    destruct (rep_pos _ _ R N) as [T Hh].
    constructor; unfold size in *; cbn [mem dhead dtail]; rewrite ?upd_length; auto.
    - intros E0. apply (f_equal (@length A)) in E0. rewrite upd_length in E0. cbn in E0. lia.
    - intros k Hk. rewrite nth_upd. rewrite (mod_case (dtail d + k)), (mod_case (dtail d + i)) by lia.
      destruct (Nat.eq_dec k i) as [->|Nk].
      + rewrite Nat.eqb_refl. rewrite nth_error_upd_eq by auto.
        destruct (Nat.ltb_spec (dtail d + i) (length (mem d)));
        match goal with |- context [?u <? ?v] => destruct (Nat.ltb_spec u v) end; auto; lia.
      + rewrite nth_error_upd_ne by auto. pose proof (rep_cell _ _ R k Hk) as C. unfold size in C. rewrite mod_case in C by lia.
        destruct (Nat.ltb_spec (dtail d + k) (length (mem d))), (Nat.ltb_spec (dtail d + i) (length (mem d)));
        match goal with |- context [?u =? ?v] => destruct (Nat.eqb_spec u v) end; auto; lia.
  Qed.

  Lemma dclear_ok l : forall d fuel, rep d l -> length l <= fuel -> exists d', dclear fuel d = Ok d' /\ rep d' [].
  Proof.
    induction l as [|x l IH] using rev_ind; intros d fuel R F.
    - exists d. split; auto. destruct fuel; cbn [dclear]; rewrite (dempty_ok d [] R); reflexivity.
    - rewrite app_length in F. cbn in F. destruct fuel; [lia|]. cbn [dclear]. rewrite (dempty_ok d _ R).
      replace (match l ++ [x] with [] => true | _ => false end) with false by (destruct l; reflexivity).
      destruct (popFront_ok d l x R) as (d' & E & R'). rewrite E. cbn [obind]. apply IH; auto. lia.
  Qed.

  (** the destructor destroys every item and nothing else *)
  Lemma destroyAll_ok d l : rep d l -> forall c i m, i + c = length l -> length m = size d ->
    (forall j, j < size d -> nth_error m ((dtail d + j) mod size d) = Some (if j <? i then None else nth_error l j)) ->
    exists m', destroyAll m (size d) (dtail d) i c = Ok m' /\ length m' = size d /\ forall j, j < size d -> nth_error m' ((dtail d + j) mod size d) = Some None.
  Proof.
    intros R. induction c as [|c IH]; intros i m E Lm C; cbn [destroyAll].
    - exists m. repeat split; auto. intros j Hj. rewrite C by auto. destruct (Nat.ltb_spec j i); auto.
      f_equal. apply nth_error_None. lia.
    - pose proof (rep_len _ _ R). rewrite modIndex_ok by lia. cbn [obind]. unfold destroy. rewrite C by lia. rewrite Nat.ltb_irrefl.
      destruct (nth_error l i) as [x|] eqn:Ex; [|apply nth_error_None in Ex; lia]. cbn [obind].
      apply IH; [lia|rewrite upd_length; auto|]. intros j Hj. rewrite nth_upd.
      pose proof (tail_lt d l R ltac:(lia)). rewrite !mod_case in * by lia.
      specialize (C j Hj). rewrite mod_case in C by lia.
      destruct (Nat.eq_dec j i) as [->|N].
      + rewrite Nat.eqb_refl. destruct (Nat.ltb_spec i (S i)); [|lia].
        destruct (Nat.ltb_spec (dtail d + i) (size d)); match goal with |- context [?u <? ?v] => destruct (Nat.ltb_spec u v) end; auto; lia.
      + destruct (Nat.ltb_spec (dtail d + i) (size d)), (Nat.ltb_spec (dtail d + j) (size d));
        match goal with |- context [?u =? ?v] => destruct (Nat.eqb_spec u v) end; try lia;
        rewrite C; destruct (Nat.ltb_spec j i), (Nat.ltb_spec j (S i)); auto; lia.
  Qed.

  Lemma ddestroy_ok d l : rep d l -> exists m, ddestroy d = Ok m /\ Forall (fun c => c = None) m.
  Proof.
    intros R. unfold ddestroy. rewrite (dlength_ok d l R).
    destruct (destroyAll_ok d l R (length l) 0 (mem d)) as (m & E & L & C); auto.
    { intros j Hj. cbn. apply (rep_cell _ _ R). auto. }
    exists m. split; auto. apply Forall_forall. intros c Hc. apply In_nth_error in Hc as [j Hj].
    assert (J : j < size d) by (rewrite <- L; apply nth_error_Some; congruence).
    pose proof (tail_lt d l R ltac:(lia)) as T.
    specialize (C (if dtail d <=? j then j - dtail d else j + size d - dtail d)).
    rewrite mod_case in C by (destruct (Nat.leb_spec (dtail d) j); lia).
    destruct (Nat.leb_spec (dtail d) j).
    - destruct (Nat.ltb_spec (dtail d + (j - dtail d)) (size d)); [|lia]. replace (dtail d + (j - dtail d)) with j in C by lia.
      specialize (C ltac:(lia)). congruence.
    - destruct (Nat.ltb_spec (dtail d + (j + size d - dtail d)) (size d)); [lia|].
      replace (dtail d + (j + size d - dtail d) - size d) with j in C by lia. specialize (C ltac:(lia)). congruence.
  Qed.
End Rep.

Lemma nth_error_ext {A} (l1 : list A) : forall l2, (forall j, nth_error l1 j = nth_error l2 j) -> l1 = l2.
Proof.
  induction l1 as [|a l1 IH]; intros [|b l2] H; auto.
  - specialize (H 0). discriminate.
  - specialize (H 0). discriminate.
  - pose proof (H 0) as H0. cbn in H0. injection H0 as ->. f_equal. apply IH. intros j. apply (H (S j)).
Qed.

Lemma step_ok {A} (d : deque A) l o : rep d (rev l) ->
  exists d', step d o = Ok (fst (spec_step l o), d') /\ rep d' (rev (snd (spec_step l o))).
Proof.
  intros R. assert (E0 : dlength d = length l) by (rewrite (dlength_ok d _ R); apply rev_length).
  destruct o; cbn [step spec_step].
  - destruct (pushFront_ok d _ x R) as (d' & E & R'). rewrite E. exists d'. split; [reflexivity|exact R'].
  - destruct (pushBack_ok d _ x R) as (d' & E & R'). rewrite E. exists d'. split; [reflexivity|].
    cbn [snd]. rewrite rev_unit. exact R'.
  - destruct l as [|x l].
    + exists d. unfold popFront. rewrite (dempty_ok d _ R). split; [reflexivity|exact R].
    + destruct (popFront_ok d (rev l) x R) as (d' & E & R'). rewrite E. exists d'. split; [reflexivity|exact R'].
  - destruct l as [|x l _] using rev_ind.
    + exists d. unfold popBack. rewrite (dempty_ok d _ R). split; [reflexivity|exact R].
    + rewrite rev_unit in R. destruct (popBack_ok d (rev l) x R) as (d' & E & R'). rewrite E. exists d'.
      rewrite removelast_last. destruct l; (split; [reflexivity|exact R']).
  - exists d. split; [|exact R]. destruct l as [|x l].
    + unfold getFront. rewrite (dempty_ok d _ R). reflexivity.
    + rewrite (getFront_ok d (rev l) x R). reflexivity.
  - exists d. split; [|exact R]. cbn [fst]. destruct (rev l) as [|x r].
    + unfold getBack. rewrite (dempty_ok d _ R). reflexivity.
    + rewrite (getBack_ok d r x R). reflexivity.
  - exists d. split; [|exact R]. rewrite (dat_ok d _ i R). cbn [fst]. destruct (nth_error (rev l) i); reflexivity.
  - destruct (Nat.ltb_spec i (length l)) as [L|L].
    + destruct (dset_ok d _ i x R ltac:(rewrite rev_length; exact L)) as (d' & E & R'). rewrite E. exists d'. split; [reflexivity|].
      cbn [snd]. replace (rev (firstn (length l - 1 - i) l ++ x :: skipn (length l - i) l)) with (upd (rev l) i x); [exact R'|].
      clear -L. apply nth_error_ext. intros j.
      assert (Ls : length (skipn (length l - i) l) = i) by (rewrite skipn_length; lia).
      assert (Lf : length (firstn (length l - 1 - i) l) = length l - 1 - i) by (rewrite firstn_length; lia).
      rewrite rev_app_distr. cbn [rev].
      destruct (Nat.eq_dec j i) as [->|N].
      * rewrite nth_error_upd_eq by (rewrite rev_length; auto).
        rewrite nth_error_app1 by (rewrite app_length, rev_length; cbn; lia).
        rewrite nth_error_app2 by (rewrite rev_length; lia). rewrite rev_length, Ls, Nat.sub_diag. reflexivity.
      * rewrite nth_error_upd_ne by auto.
        assert (D : rev l = rev (skipn (length l - i) l) ++ (match nth_error l (length l - 1 - i) with Some y => [y] | None => [] end) ++ rev (firstn (length l - 1 - i) l)).
        { set (p := length l - 1 - i). replace (length l - i) with (S p) by (unfold p; lia).
          assert (Hp : p < length l) by (unfold p; lia). clearbody p. clear -Hp.
          revert p Hp. induction l as [|a l IH]; intros p Hp; [cbn in Hp; lia|]. destruct p.
          - reflexivity.
          - cbn [rev skipn firstn nth_error]. rewrite (IH p) by (cbn in Hp; lia). rewrite <- !app_assoc. reflexivity. }
        rewrite D. destruct (nth_error l (length l - 1 - i)) eqn:Ey; [|apply nth_error_None in Ey; lia].
        rewrite <- !app_assoc.
        destruct (Nat.lt_ge_cases j i).
        -- rewrite !(nth_error_app1 (rev (skipn (length l - i) l))) by (rewrite rev_length; lia). reflexivity.
        -- rewrite !(nth_error_app2 (rev (skipn (length l - i) l))) by (rewrite rev_length; lia). rewrite rev_length, Ls.
           destruct (j - i) as [|k] eqn:K; [lia|]. reflexivity.
    + exists d. unfold dset. rewrite E0. destruct (Nat.leb_spec (length l) i); [|lia]. split; [reflexivity|exact R].
  - exists d. rewrite E0. split; [reflexivity|exact R].
  - exists d. rewrite (dempty_ok d _ R). split; [|exact R]. destruct l as [|x l]; [reflexivity|].
    cbn [rev fst]. destruct (rev l); reflexivity.
  - destruct (dclear_ok (rev l) d (S (dlength d)) R) as (d' & E & R'); [rewrite E0, rev_length; lia|].
    rewrite E. exists d'. split; [reflexivity|exact R'].
  - destruct (reserve_ok d _ n R) as (d' & E & R'). rewrite E, rev_length. exists d'. split; [reflexivity|exact R'].
Qed.

