(** Properties of the cells *)
From Verif Require Import Common EvLog_Spec Cells_Spec EvLog_Model EvLog_Proof Cells_Model Cells_Proof.
Open Scope Z_scope.

(** C441: opening the file again gives the state that was in memory, after any updates *)
Theorem cells_reopen : forall h s, Forall fits h -> updates cempty h = Ok s -> copen (cfile s) = Ok s.
Proof.
  intros h s F E. destruct (updates_inv h [] cempty [] s cinv_empty F E) as (l & [CO CF CT CL CI CN]).
  unfold copen. rewrite CF. pose proof (scan_tab l [] [] (length (encs l)) CO) as ST. cbn [app] in ST. change (len []) with 0 in ST. rewrite ST.
  - rewrite CT. cbn [obind]. rewrite <- CF. destruct s. reflexivity.
  - clear - CO. induction CO as [|f l F H IH]; [cbn; lia|]. change (encs (f :: l)) with (enc f ++ encs l). rewrite app_length. cbn [length].
    pose proof (enc_pos f F). destruct F as (_ & F & _). unfold len in F. lia.
Qed.
Lemma cells_at : forall h s, Forall fits h -> updates cempty h = Ok s ->
  exists ds, rescanCells s = Ok ds
    /\ (forall c u, latest h c = Some u -> exists x, nth_error ds (Z.to_nat c) = Some x /\ shows_cell u x)
    /\ (forall x, In x ds -> exists u, In u h /\ shows_cell u x).
Proof.
  intros h s F E. destruct (updates_inv h [] cempty [] s cinv_empty F E) as (l & I). cbn [app] in I. pose proof I as [CO CF CT CL CI CN].
  unfold rescanCells.
  assert (EL : forall i, (i < length (cellMap s))%nat -> exists f x, In f l /\ loadStEvent (cfile s) (fst (nth i (cellMap s) (0, 0))) = Ok x /\ shows_cell (fu f) x
                 /\ forall u, latest h (Z.of_nat i) = Some u -> fu f = u).
  { intros i Hi. destruct (entry_load h s l i I Hi) as (a & f & b & -> & -> & Q & _). rewrite CF. apply Forall_app in CO as (CA & CB). inversion CB as [|? ? C1 _]; subst.
    destruct (load_frame a f b C1 CA) as (x & LX & SX). exists f, x. repeat split; auto. apply in_or_app. cbn. auto. }
  destruct (loadAll_ok (cfile s) (cellMap s)) as (ds & LD & LL & LN).
  { intros p Hp. apply (In_nth _ _ (0, 0)) in Hp as (i & Hi & <-). destruct (EL i Hi) as (f & x & _ & Q & _). eauto. }
  exists ds. split; [exact LD|]. split.
  - intros c u EU. assert (FC : 0 <= c < len (cellMap s)).
    { rewrite <- CL in EU. pose proof (latest_cell _ _ _ EU) as <-. destruct (latest_split _ _ _ EU) as (a & f & b & -> & <- & _).
      destruct (tab_len _ _ _ _ CO CT) as (_ & T). rewrite Forall_forall in CO. assert (IN : In f (a ++ f :: b)) by (apply in_or_app; cbn; auto).
      specialize (T f IN). destruct (CO f IN) as ((Q & _) & _). lia. }
    assert (Hi : (Z.to_nat c < length (cellMap s))%nat) by (unfold len in FC; lia).
    destruct (EL _ Hi) as (f & x & _ & LX & SX & Q). rewrite Z2Nat.id in Q by lia. specialize (Q u EU). subst u.
    destruct (LN (Z.to_nat c) _ (nth_error_nth' _ (0, 0) Hi)) as (y & NY & LY). rewrite LX in LY. injection LY as <-.
    exists x. split; [exact NY|exact SX].
  - intros x Hx. apply In_nth_error in Hx as (i & Hx). assert (Hi : (i < length (cellMap s))%nat) by (rewrite <- LL; apply nth_error_Some; congruence).
    destruct (EL i Hi) as (f & y & IF & LX & SX & _). destruct (LN i _ (nth_error_nth' _ (0, 0) Hi)) as (z & NZ & LZ).
    assert (x = y) by congruence. subst y. exists (fu f). auto.
Qed.
(** C442: the scan of the cells gives the latest event of each cell that was written, and only events that were written *)
Theorem cells_latest : forall h s, Forall fits h -> updates cempty h = Ok s ->
  exists ds, rescanCells s = Ok ds
    /\ (forall c u, latest h c = Some u -> exists x, In x ds /\ shows_cell u x)
    /\ (forall x, In x ds -> exists u, In u h /\ shows_cell u x).
Proof.
  intros h s F E. destruct (cells_at h s F E) as (ds & R & A1 & A2). exists ds. split; [exact R|]. split; [|exact A2].
  intros c u EU. destruct (A1 c u EU) as (x & N & S). exists x. split; [eapply nth_error_In; exact N|exact S].
Qed.
(** updates are accepted as long as the cells have small numbers *)
Theorem cells_accepted : forall h, Forall fits h -> Forall (fun u => ucell u <= 10000) h -> exists s, updates cempty h = Ok s.
Proof.
  intros h _ F. generalize cempty. induction F as [|u h U F IH]; intros s; cbn [updates]; [eauto|].
  unfold updateCell, expandCellMap. pose proof (len_nonneg _ (cellMap s)). destruct (len (cellMap s) <=? ucell u); cbn [obind]; [|apply IH].
  replace (len (cellMap s) + 10000 <? ucell u) with false by lia. cbn [obind]. apply IH.
Qed.
(** C443: a scan should give each cell once: the numbers of cells begin with 1, the entry 0 of the table leads to the first frame, so
    the cell of the first frame is given at least twice by each scan *)
Theorem cells_once_refuted : forall h s, Forall fits h -> h <> [] -> updates cempty h = Ok s ->
  exists ds x y u v, rescanCells s = Ok ds /\ nth_error ds 0 = Some x /\ In y (tl ds) /\ shows_cell u x /\ shows_cell v y /\ ucell u = ucell v.
Proof.
  intros h s F N E. destruct (cells_at h s F E) as (ds0 & R & A1 & _).
  destruct (updates_inv h [] cempty [] s cinv_empty F E) as (l & I). cbn [app] in I. pose proof I as [CO CF CT CL CI CN].
  assert (HM : (0 < length (cellMap s))%nat).
  { destruct h as [|u h]; [contradiction|]. destruct (tab_len _ _ _ _ CO CT) as (_ & T). destruct l as [|f l]; [exfalso; apply CN; auto; discriminate|].
    inversion CO as [|? ? ((Q & _) & _) _]; subst. specialize (T f (or_introl eq_refl)). unfold len in T. lia. }
  destruct (entry_load h s l 0 I HM) as (a & f & b & EL & EN & _ & NA).
  assert (LN : latest h 0 = None). { destruct (latest h 0) as [u|] eqn:EU; [|reflexivity]. exfalso. rewrite <- CL in EU. pose proof (latest_cell _ _ _ EU) as Q.
    destruct (latest_split _ _ _ EU) as (a' & f' & b' & -> & <- & _). rewrite Forall_forall in CO. destruct (CO f' ltac:(apply in_or_app; cbn; auto)) as ((Q2 & _) & _). lia. }
  rewrite (NA LN) in *. cbn [app caps] in *. subst l. inversion CO as [|? ? C1 _]; subst.
  destruct (load_frame [] f b C1 (Forall_nil _)) as (x & LX & SX). cbn [app caps] in LX. rewrite <- CF in LX.
  unfold rescanCells in *. destruct (cellMap s) as [|p m] eqn:EM; [cbn in HM; lia|]. cbn [nth] in EN. cbn [loadAll] in R. rewrite EN, LX in R. cbn [obind] in R.
  destruct (loadAll (cfile s) m) as [ds1| | |] eqn:ER; try discriminate R. cbn [obind] in R. injection R as <-.
  destruct (latest h (ucell (fu f))) as [u|] eqn:EU.
  2:{ exfalso. rewrite <- CL in EU. cbn [map latest] in EU. rewrite Z.eqb_refl in EU. destruct (latest (map fu b) (ucell (fu f))); discriminate. }
  destruct (A1 _ _ EU) as (y & NY & SY). pose proof (latest_cell _ _ _ EU) as UC.
  exists (x :: ds1), x, y, (fu f), u. split; [cbn [loadAll]; rewrite EN, LX; cbn [obind]; rewrite ER; reflexivity|]. split; [reflexivity|]. split; [|auto].
  cbn [tl]. destruct C1 as ((Q & _) & _). destruct (Z.to_nat (ucell (fu f))) as [|n] eqn:EZ; [lia|]. cbn [nth_error] in NY. eapply nth_error_In. exact NY.
Qed.
(** C444: after a scan, a listener that keeps the last event it got for each cell should have the latest one.  Three cells are
    allocated, 1 and 3 are written, 1 is written again with more data: the last event that is given for cell 1 is the old one *)
Definition stale : list cupd := [mkU 1 5 [1] 100; mkU 3 6 [2; 2] 101; mkU 1 7 [1; 2; 3; 4; 5; 6; 7; 8; 9] 102].
Definition cell_of (x : cdelivery) : Z := fst (fst (fst (fst x))).
Theorem cells_last_refuted : exists h s ds1 x ds2 u, Forall fits h /\ updates cempty h = Ok s /\ rescanCells s = Ok (ds1 ++ x :: ds2)
  /\ latest h (cell_of x) = Some u /\ ~ shows_cell u x /\ Forall (fun y => cell_of y <> cell_of x) ds2.
Proof.
  exists stale. destruct (updates cempty stale) as [s| | |] eqn:E; try (vm_compute in E; discriminate E). exists s.
  destruct (rescanCells s) as [ds| | |] eqn:R; (vm_compute in E; injection E as <-; vm_compute in R; try discriminate R). injection R as <-.
  exists [(1, 0, 100, 5, [1; 0; 0; 0; 0; 0; 0; 0]); (1, 48, 102, 7, [1; 2; 3; 4; 5; 6; 7; 8; 9; 0; 0; 0; 0; 0; 0; 0])].
  exists (1, 0, 100, 5, [1; 0; 0; 0; 0; 0; 0; 0]), [(3, 24, 101, 6, [2; 2; 0; 0; 0; 0; 0; 0])], (mkU 1 7 [1; 2; 3; 4; 5; 6; 7; 8; 9] 102).
  split; [unfold stale, fits, bytes, len; repeat constructor; cbn; lia|]. split; [reflexivity|]. split; [reflexivity|]. split; [reflexivity|].
  split; [cbn; intros (_ & Q & _); discriminate Q|]. repeat constructor. cbn. lia.
Qed.
Print Assumptions cells_reopen.
Print Assumptions cells_latest.
Print Assumptions cells_accepted.
Print Assumptions cells_once_refuted.
Print Assumptions cells_last_refuted.

(** an update in place (smaller), one that moves (larger), and a new cell *)
Example cells_ex : let h := stale ++ [mkU 3 9 [7] 103; mkU 2 1 [] 104] in
  Forall fits h /\ match updates cempty h with
  | Ok s => copen (cfile s) = Ok s /\ length (cfile s) = 96%nat /\
            match rescanCells s with Ok ds => map cell_of ds = [1; 1; 2; 3] /\ nth_error ds 3 = Some (3, 24, 103, 9, [7; 0; 0; 0; 0; 0; 0; 0]) | _ => False end
  | _ => False end.
Proof. split; [unfold stale, fits, bytes, len; repeat constructor; cbn; lia|]. vm_compute. repeat split. Qed.
