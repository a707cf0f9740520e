(** Lemmas for the parsing of time stamps. *)
From Coq Require Import ZArith String Ascii ZifyBool.
From Verif Require Import Common TextParser_Spec TextParser_Model TextParser_Proof.
From Verif Require Import TimeStamp_Spec TimeStamp_Model TimeStamp_Proof StampParse_Model.
Local Open Scope Z_scope.

Definition U (n : string) (cl : bool) : item := Field Unsigned NoLimits (pat n) cl.
Definition U2 (n : string) (cl : bool) : item := Field Unsigned (MinMax (pat "2") (pat "2")) (pat n) cl.

Definition nondigit (s : list Z) : Prop := match s with c :: _ => TextParser_Spec.digit c = false | [] => True end.
Definition nonblank (s : list Z) : Prop := match s with c :: _ => blank c = false | [] => True end.

Lemma tparse_ok p is : pat p = pattern is -> wf is -> forall src,
  match smatch is src with
  | Some fs => exists st, tparse p src = Ok (true, st) /\
                 forall n t, n <> 0%nat -> last_field fs n = Some t -> result st n = Ok t
  | None => exists st, tparse p src = Ok (false, st)
  end.
Proof.
  intros Ep W src. unfold tparse, run. rewrite Ep.
  destruct (parse_ok [10] is W src (mkTp [] []) (4 * length (pattern is) + length src + 20)%nat ltac:(lia))
    as (b & s' & st & E & _ & _ & _ & R). rewrite E. cbn [obind].
  destruct (smatch is src) as [fs|].
  - destruct R as [-> R]. exists st. split; [reflexivity|]. intros n t N L. apply holds_result; auto.
  - subst b. eauto.
Qed.

Lemma munch_digits ds rest : Forall (fun c => TextParser_Spec.digit c = true) ds -> nondigit rest ->
  munch TextParser_Spec.digit None (ds ++ rest) = (ds, rest).
Proof.
  intros F H. induction F as [|c ds Hc F IH]; cbn [app munch].
  - destruct rest as [|c rest]; [reflexivity|]. cbn in H. cbn [munch]. now rewrite H.
  - rewrite Hc. cbn [option_map]. now rewrite IH.
Qed.
Lemma sm_u n cl r ds rest : numeral ds -> nondigit rest ->
  smatch (U n cl :: r) (ds ++ rest) = addf (number (pat n)) ds (smatch r rest).
Proof.
  intros [N F] H. unfold U. rewrite smatch_take by easy. cbn [take hi].
  assert (E : munch_number false TextParser_Spec.digit None (ds ++ rest) = Some (ds, rest)).
  { unfold munch_number. pose proof (munch_digits ds rest F H) as Q.
    destruct ds as [|c ds]; [easy|]. cbn [app] in *. rewrite andb_false_r, Q. reflexivity. }
  rewrite E. destruct ds; [easy|]. reflexivity.
Qed.
Lemma sm_u_fail n cl r s : nondigit s -> smatch (U n cl :: r) s = None.
Proof.
  intros H. unfold U. rewrite smatch_take by easy. cbn [take hi].
  destruct s as [|c s]; [reflexivity|]. unfold munch_number. rewrite andb_false_r. cbn [munch]. cbn in H. now rewrite H.
Qed.
Lemma sm_text c r s : smatch (Text c :: r) (c :: s) = smatch r s.
Proof. cbn [smatch]. now rewrite Z.eqb_refl. Qed.
Lemma sm_text_fail c r s : match s with d :: _ => d <> c | [] => True end -> smatch (Text c :: r) s = None.
Proof. destruct s as [|d s]; [reflexivity|]. cbn [smatch]. intros H. destruct (Z.eqb_spec d c); [contradiction|reflexivity]. Qed.
Lemma sm_blanks r b s : Forall (fun c => blank c = true) b -> nonblank s -> smatch (Blanks :: r) (b ++ s) = smatch r s.
Proof.
  intros F H. cbn [smatch]. f_equal. unfold dropBlanks.
  induction F as [|c b Hc F IH]; cbn [app].
  - destruct s as [|c s]; [reflexivity|]. cbn in H. cbn [munch]. now rewrite H.
  - cbn [munch option_map]. rewrite Hc. destruct (munch blank None (b ++ s)) as [x y]. exact IH.
Qed.
Lemma sm_end : smatch [] [] = Some []. Proof. reflexivity. Qed.

Lemma numeral_nonblank ds rest : numeral ds -> nonblank (ds ++ rest).
Proof.
  intros [N F]. destruct ds as [|c ds]; [easy|]. cbn. apply Forall_cons_iff in F as [H _].
  unfold TextParser_Spec.digit in H. unfold blank. lia.
Qed.
Lemma blank_nondigit b rest : Forall (fun c => blank c = true) b -> b <> [] -> nondigit (b ++ rest).
Proof.
  intros F N. destruct b as [|c b]; [easy|]. cbn. apply Forall_cons_iff in F as [H _].
  unfold TextParser_Spec.digit. unfold blank in H. lia.
Qed.
Lemma blank_nondigit_end b : Forall (fun c => blank c = true) b -> nondigit b.
Proof. intros F. destruct b; [exact I|]. rewrite <- app_nil_r. apply blank_nondigit; easy. Qed.

Lemma resultNat_ok st n ds : numeral ds -> decimal ds < 2 ^ 64 -> result st n = Ok ds -> resultNat st n = Ok (decimal ds).
Proof.
  intros H B R. unfold resultNat. rewrite R. cbn [obind]. rewrite toUnsigned_ok by exact H. f_equal.
  apply Z.mod_small. split; [|exact B]. destruct H as [_ D]. unfold decimal.
  assert (G : forall l a, Forall (fun c => TextParser_Spec.digit c = true) l -> 0 <= a ->
    0 <= fold_left (fun a c => a * 10 + (c - 48)) l a).
  { clear. induction l as [|c l IH]; intros a Fl Ha; [exact Ha|]. apply Forall_cons_iff in Fl as [Hc Fl].
    unfold TextParser_Spec.digit in Hc. cbn [fold_left]. apply IH; [exact Fl|lia]. }
  apply G; [exact D|lia].
Qed.

Definition num (ds : list Z) : Prop := numeral ds /\ decimal ds < 2 ^ 64.

Lemma num1 c : TextParser_Spec.digit c = true -> numeral [c].
Proof. intros H. split; [easy|]. constructor; [exact H|constructor]. Qed.
Ltac wf_tac := cbn; repeat split; try (apply num1; reflexivity); try easy; try reflexivity.

Definition fullItems : list item :=
  [Blanks; U "1" false; Text 45; U "2" false; Text 45; U "3" false; Blanks;
   U "4" false; Text 58; U "5" false; Text 58; U "6" false; Blanks].
Definition dateItems : list item := [Blanks; U "1" false; Text 45; U "2" false; Text 45; U "3" false; Blanks].
Definition timeItems : list item := [Blanks; U "1" false; Text 58; U "2" false; Text 58; U "3" false; Blanks].
Lemma full_wf : wf fullItems. Proof. unfold fullItems, U. wf_tac. Qed.
Lemma date_wf : wf dateItems. Proof. unfold dateItems, U. wf_tac. Qed.
Lemma time_wf : wf timeItems. Proof. unfold timeItems, U. wf_tac. Qed.

Lemma sm_blanks_end b r : Forall (fun c => blank c = true) b -> smatch (Blanks :: r) b = smatch r [].
Proof. intros F. rewrite <- (app_nil_r b). now apply sm_blanks. Qed.

Section DB.
  Variable timegm : tm -> Z.
  Variables (b1 b2 b3 y mo d h m s : list Z).
  Hypotheses (B1 : Forall (fun c => blank c = true) b1) (B2 : Forall (fun c => blank c = true) b2)
    (B3 : Forall (fun c => blank c = true) b3) (N2 : b2 <> [])
    (Y : num y) (MO : num mo) (D : num d) (H : num h) (M : num m) (S_ : num s).

  Lemma db_full : fromDBTime timegm (b1 ++ y ++ 45 :: mo ++ 45 :: d ++ b2 ++ h ++ 58 :: m ++ 58 :: s ++ b3) =
    fromYMDhms timegm (decimal y) (decimal mo) (decimal d) (decimal h) (decimal m) (decimal s).
  Proof using B1 B2 B3 N2 Y MO D H M S_.
    destruct Y as [Y1 Y2], MO as [O1 O2], D as [D1 D2], H as [H1 H2], M as [M1 M2], S_ as [S1 S2].
    unfold fromDBTime.
    pose proof (tparse_ok " %u1-%u2-%u3 %u4:%u5:%u6 " fullItems eq_refl full_wf
      (b1 ++ y ++ 45 :: mo ++ 45 :: d ++ b2 ++ h ++ 58 :: m ++ 58 :: s ++ b3)) as Q.
    unfold fullItems in Q.
    rewrite sm_blanks in Q by (auto; now apply numeral_nonblank).
    rewrite sm_u in Q by (auto; reflexivity). rewrite sm_text in Q.
    rewrite sm_u in Q by (auto; reflexivity). rewrite sm_text in Q.
    rewrite sm_u in Q by (auto; now apply blank_nondigit).
    rewrite sm_blanks in Q by (auto; now apply numeral_nonblank).
    rewrite sm_u in Q by (auto; reflexivity). rewrite sm_text in Q.
    rewrite sm_u in Q by (auto; reflexivity). rewrite sm_text in Q.
    rewrite sm_u in Q by (auto; now apply blank_nondigit_end).
    rewrite sm_blanks_end, sm_end in Q by exact B3. cbn [addf option_map] in Q.
    destruct Q as (st & E & R). rewrite E. cbn [obind fields].
    rewrite (resultNat_ok st 1 y), (resultNat_ok st 2 mo), (resultNat_ok st 3 d), (resultNat_ok st 4 h),
      (resultNat_ok st 5 m), (resultNat_ok st 6 s) by first [assumption | apply R; [lia|reflexivity]].
    reflexivity.
  Qed.
  Lemma db_date : fromDBTime timegm (b1 ++ y ++ 45 :: mo ++ 45 :: d ++ b3) =
    fromYMDhms timegm (decimal y) (decimal mo) (decimal d) 0 0 0.
  Proof using B1 B3 Y MO D.
    clear S_ M H s m h N2 B2 b2. destruct Y as [Y1 Y2], MO as [O1 O2], D as [D1 D2].
    unfold fromDBTime.
    pose proof (tparse_ok " %u1-%u2-%u3 %u4:%u5:%u6 " fullItems eq_refl full_wf (b1 ++ y ++ 45 :: mo ++ 45 :: d ++ b3)) as Q.
    unfold fullItems in Q.
    rewrite sm_blanks in Q by (auto; now apply numeral_nonblank).
    rewrite sm_u in Q by (auto; reflexivity). rewrite sm_text in Q.
    rewrite sm_u in Q by (auto; reflexivity). rewrite sm_text in Q.
    rewrite sm_u in Q by (auto; now apply blank_nondigit_end).
    rewrite sm_blanks_end, sm_u_fail in Q by first [exact B3|exact I]. cbn [addf option_map] in Q.
    destruct Q as (st & E). rewrite E. cbn [obind]. clear st E.
    pose proof (tparse_ok " %u1-%u2-%u3 " dateItems eq_refl date_wf (b1 ++ y ++ 45 :: mo ++ 45 :: d ++ b3)) as Q.
    unfold dateItems in Q.
    rewrite sm_blanks in Q by (auto; now apply numeral_nonblank).
    rewrite sm_u in Q by (auto; reflexivity). rewrite sm_text in Q.
    rewrite sm_u in Q by (auto; reflexivity). rewrite sm_text in Q.
    rewrite sm_u in Q by (auto; now apply blank_nondigit_end).
    rewrite sm_blanks_end, sm_end in Q by exact B3. cbn [addf option_map] in Q.
    destruct Q as (st & E & R). rewrite E. cbn [obind fields].
    rewrite (resultNat_ok st 1 y), (resultNat_ok st 2 mo), (resultNat_ok st 3 d) by first [assumption | apply R; [lia|reflexivity]].
    reflexivity.
  Qed.
  Lemma db_time : fromDBTime timegm (b1 ++ h ++ 58 :: m ++ 58 :: s ++ b3) =
    fromYMDhms timegm 0 0 0 (decimal h) (decimal m) (decimal s).
  Proof using B1 B3 H M S_.
    clear Y MO D y mo d N2 B2 b2. destruct H as [H1 H2], M as [M1 M2], S_ as [S1 S2].
    unfold fromDBTime.
    pose proof (tparse_ok " %u1-%u2-%u3 %u4:%u5:%u6 " fullItems eq_refl full_wf (b1 ++ h ++ 58 :: m ++ 58 :: s ++ b3)) as Q.
    unfold fullItems in Q.
    rewrite sm_blanks in Q by (auto; now apply numeral_nonblank).
    rewrite sm_u in Q by (auto; reflexivity). rewrite sm_text_fail in Q by lia. cbn [addf option_map] in Q.
    destruct Q as (st & E). rewrite E. cbn [obind]. clear st E.
    pose proof (tparse_ok " %u1-%u2-%u3 " dateItems eq_refl date_wf (b1 ++ h ++ 58 :: m ++ 58 :: s ++ b3)) as Q.
    unfold dateItems in Q.
    rewrite sm_blanks in Q by (auto; now apply numeral_nonblank).
    rewrite sm_u in Q by (auto; reflexivity). rewrite sm_text_fail in Q by lia. cbn [addf option_map] in Q.
    destruct Q as (st & E). rewrite E. cbn [obind]. clear st E.
    pose proof (tparse_ok " %u1:%u2:%u3 " timeItems eq_refl time_wf (b1 ++ h ++ 58 :: m ++ 58 :: s ++ b3)) as Q.
    unfold timeItems in Q.
    rewrite sm_blanks in Q by (auto; now apply numeral_nonblank).
    rewrite sm_u in Q by (auto; reflexivity). rewrite sm_text in Q.
    rewrite sm_u in Q by (auto; reflexivity). rewrite sm_text in Q.
    rewrite sm_u in Q by (auto; now apply blank_nondigit_end).
    rewrite sm_blanks_end, sm_end in Q by exact B3. cbn [addf option_map] in Q.
    destruct Q as (st & E & R). rewrite E. cbn [obind fields].
    rewrite (resultNat_ok st 1 h), (resultNat_ok st 2 m), (resultNat_ok st 3 s) by first [assumption | apply R; [lia|reflexivity]].
    reflexivity.
  Qed.
End DB.

(** ** ISO 8601 *)
Lemma findOneOf_app set a r : Forall (fun c => existsb (Z.eqb c) set = false) a ->
  findOneOf set (a ++ r) = option_map (fun k => length a + k)%nat (findOneOf set r).
Proof.
  induction 1 as [|c a Hc F IH]; cbn [app findOneOf].
  - destruct (findOneOf set r); reflexivity.
  - rewrite Hc, IH. destruct (findOneOf set r); reflexivity.
Qed.
Lemma head_app a r : head (length a) (a ++ r) = a.
Proof. unfold head. rewrite firstn_app, firstn_all, Nat.sub_diag. cbn. apply app_nil_r. Qed.
Lemma offset_app a r : offset (length a) (a ++ r) = r.
Proof. unfold offset. rewrite skipn_app, skipn_all, Nat.sub_diag. reflexivity. Qed.
Lemma digit_not_in set ds : Forall (fun c => c < 48 \/ 57 < c) set -> Forall (fun c => TextParser_Spec.digit c = true) ds ->
  Forall (fun c => existsb (Z.eqb c) set = false) ds.
Proof.
  intros Fs F. eapply Forall_impl; [|exact F]. intros c Hc. unfold TextParser_Spec.digit in Hc.
  induction Fs as [|x set Hx Fs IH]; [reflexivity|]. cbn [existsb]. rewrite IH. lia.
Qed.

Definition dItems : list item := [U "1" false; Text 45; U "2" false; Text 45; U "3" false].
Definition cItems : list item := [U "1" false; Text 58; U "2" false; Text 58; U "3" false].
Lemma d_wf : wf dItems. Proof. unfold dItems, U. wf_tac. Qed.
Lemma c_wf : wf cItems. Proof. unfold cItems, U. wf_tac. Qed.

Lemma u_end n cl r ds : numeral ds -> smatch (U n cl :: r) ds = addf (number (pat n)) ds (smatch r []).
Proof. intros N. rewrite <- (app_nil_r ds) at 1. apply sm_u; [exact N|exact I]. Qed.

Section ISO.
  Variable timegm : tm -> Z.
  Variables (y mo d h m s : list Z).
  Hypotheses (Y : num y) (MO : num mo) (D : num d) (H : num h) (M : num m) (S_ : num s)
    (LY : length y = 4%nat) (LMO : length mo = 2%nat) (LD : length d = 2%nat)
    (LH : length h = 2%nat) (LM : length m = 2%nat) (LS : length s = 2%nat).
  Definition dateText : list Z := y ++ 45 :: mo ++ 45 :: d.
  Definition clockText : list Z := h ++ 58 :: m ++ 58 :: s.

  Lemma date_ok : parse8601date timegm dateText = fromYMDhms timegm (decimal y) (decimal mo) (decimal d) 0 0 0.
  Proof using Y MO D LY LMO LD.
    clear S_ M H LS LM LH s m h. destruct Y as [Y1 Y2], MO as [O1 O2], D as [D1 D2].
    unfold parse8601date.
    assert (L : length dateText = 10%nat) by (unfold dateText; rewrite app_length; cbn [length]; rewrite app_length; cbn [length]; lia).
    rewrite L. cbn [Nat.eqb].
    pose proof (tparse_ok "%u1-%u2-%u3" dItems eq_refl d_wf dateText) as Q.
    unfold dItems, dateText in Q.
    rewrite sm_u in Q by (auto; reflexivity). rewrite sm_text in Q.
    rewrite sm_u in Q by (auto; reflexivity). rewrite sm_text in Q.
    rewrite u_end in Q by auto. rewrite sm_end in Q. cbn [addf option_map] in Q.
    destruct Q as (st & E & R). unfold dateText. rewrite E. cbn [obind fields].
    rewrite (resultNat_ok st 1 y), (resultNat_ok st 2 mo), (resultNat_ok st 3 d) by first [assumption | apply R; [lia|reflexivity]].
    reflexivity.
  Qed.
  Lemma clock_ok : clockPart timegm clockText = fromYMDhms timegm 0 0 0 (decimal h) (decimal m) (decimal s).
  Proof using H M S_ LH LM LS.
    clear Y MO D LY LMO LD y mo d. destruct H as [H1 H2], M as [M1 M2], S_ as [S1 S2].
    unfold clockPart.
    assert (L : length clockText = 8%nat) by (unfold clockText; rewrite app_length; cbn [length]; rewrite app_length; cbn [length]; lia).
    rewrite L. cbn [Nat.eqb].
    pose proof (tparse_ok "%u1:%u2:%u3" cItems eq_refl c_wf clockText) as Q.
    unfold cItems, clockText in Q.
    rewrite sm_u in Q by (auto; reflexivity). rewrite sm_text in Q.
    rewrite sm_u in Q by (auto; reflexivity). rewrite sm_text in Q.
    rewrite u_end in Q by auto. rewrite sm_end in Q. cbn [addf option_map] in Q.
    destruct Q as (st & E & R). unfold clockText. rewrite E. cbn [obind fields].
    rewrite (resultNat_ok st 1 h), (resultNat_ok st 2 m), (resultNat_ok st 3 s) by first [assumption | apply R; [lia|reflexivity]].
    reflexivity.
  Qed.

  Lemma date_no_sep : Forall (fun c => existsb (Z.eqb c) (pat "T ") = false) dateText.
  Proof using Y MO D.
    clear S_ M H LS LM LH s m h LY LMO LD. destruct Y as [[_ Y1] Y2], MO as [[_ O1] O2], D as [[_ D1] D2]. unfold dateText.
    assert (F : Forall (fun c => c < 48 \/ 57 < c) (pat "T ")) by (repeat constructor; cbn; lia).
    repeat (apply Forall_app; split); try (apply digit_not_in; assumption).
    apply Forall_cons; [reflexivity|]. apply Forall_app; split; [apply digit_not_in; assumption|].
    apply Forall_cons; [reflexivity|]. apply digit_not_in; assumption.
  Qed.
  Lemma clock_no set : Forall (fun c => c < 48 \/ 58 < c) set -> Forall (fun c => existsb (Z.eqb c) set = false) clockText.
  Proof using H M S_.
    clear Y MO D LY LMO LD y mo d LH LM LS. intros Fs. destruct H as [[_ H1] H2], M as [[_ M1] M2], S_ as [[_ S1] S2]. unfold clockText.
    assert (F : Forall (fun c => c < 48 \/ 57 < c) set) by (eapply Forall_impl; [|exact Fs]; cbn; intros; lia).
    assert (C : existsb (Z.eqb 58) set = false) by (clear -Fs; induction Fs as [|x l Hx F IH]; [reflexivity|]; cbn [existsb]; rewrite IH; lia).
    repeat (apply Forall_app; split); try (apply digit_not_in; assumption).
    apply Forall_cons; [exact C|]. apply Forall_app; split; [apply digit_not_in; assumption|].
    apply Forall_cons; [exact C|]. apply digit_not_in; assumption.
  Qed.

  Lemma iso_split rest : fromISO8601Time timegm (dateText ++ 84 :: rest) =
    let! date := fromYMDhms timegm (decimal y) (decimal mo) (decimal d) 0 0 0 in
    let! time := parse8601time timegm rest in op_add date time.
  Proof using Y MO D LY LMO LD.
    clear S_ M H LS LM LH s m h. unfold fromISO8601Time. rewrite findOneOf_app by exact date_no_sep. cbn [findOneOf].
    change (existsb (Z.eqb 84) (pat "T ")) with true. cbn [option_map].
    rewrite Nat.add_0_r, head_app, date_ok.
    replace (offset (length dateText + 1) (dateText ++ 84 :: rest)) with rest; [reflexivity|].
    change (dateText ++ 84 :: rest) with (dateText ++ [84] ++ rest). rewrite app_assoc.
    replace (length dateText + 1)%nat with (length (dateText ++ [84])) by (rewrite app_length; reflexivity).
    symmetry. apply offset_app.
  Qed.
  Lemma iso_date_only : fromISO8601Time timegm dateText =
    let! date := fromYMDhms timegm (decimal y) (decimal mo) (decimal d) 0 0 0 in op_add date ts_new.
  Proof using Y MO D LY LMO LD.
    clear S_ M H LS LM LH s m h. assert (N : findOneOf (pat "T ") dateText = None).
    { rewrite <- (app_nil_r dateText). rewrite findOneOf_app by exact date_no_sep. reflexivity. }
    unfold fromISO8601Time. rewrite N. unfold head. rewrite firstn_all, date_ok.
    unfold offset. rewrite skipn_all2 by lia. reflexivity.
  Qed.

  (** the zone part is what is left *)
  Definition zonePart (res : tstamp) (zonespec : list Z) : outcome tstamp :=
    match zonespec with
    | [] => Ok res
    | zonedir :: zone =>
        if (zonedir =? 90) && match zone with [] => true | _ => false end then Ok res
        else
          let! ofs := zoneOffset zone in
          if zonedir =? 45 then op_add res ofs
          else if negb (zonedir =? 43) then op_sub res ofs
          else Throw
    end.
  Lemma time_split c zone : existsb (Z.eqb c) (pat "Z+-") = true ->
    parse8601time timegm (clockText ++ c :: zone) =
    let! res := fromYMDhms timegm 0 0 0 (decimal h) (decimal m) (decimal s) in
    let! res := op_add res (intervalMSec 0) in zonePart res (c :: zone).
  Proof using H M S_ LH LM LS.
    clear Y MO D LY LMO LD y mo d. intros Hc. unfold parse8601time. rewrite findOneOf_app by (apply clock_no; repeat constructor; cbn; lia).
    cbn [findOneOf]. rewrite Hc. cbn [option_map]. rewrite Nat.add_0_r, head_app, offset_app.
    assert (N : findOneOf (pat ".") clockText = None).
    { rewrite <- (app_nil_r clockText). rewrite findOneOf_app by (apply clock_no; repeat constructor; cbn; lia). reflexivity. }
    rewrite N. cbn [obind]. rewrite clock_ok. reflexivity.
  Qed.
  Lemma time_fraction c zone fr : existsb (Z.eqb c) (pat "Z+-") = true ->
    Forall (fun c => existsb (Z.eqb c) (pat "Z+-") = false) fr ->
    parse8601time timegm (clockText ++ 46 :: fr ++ c :: zone) = parse8601time timegm (clockText ++ c :: zone).
  Proof using H M S_ LH LM LS.
    clear Y MO D LY LMO LD y mo d. intros Hc Hf. rewrite (time_split c zone Hc). unfold parse8601time.
    assert (F : Forall (fun c => existsb (Z.eqb c) (pat "Z+-") = false) (clockText ++ 46 :: fr)).
    { apply Forall_app; split; [apply clock_no; repeat constructor; cbn; lia|]. apply Forall_cons; [reflexivity|exact Hf]. }
    replace (clockText ++ 46 :: fr ++ c :: zone) with ((clockText ++ 46 :: fr) ++ c :: zone) by now rewrite <- app_assoc.
    rewrite findOneOf_app by exact F. cbn [findOneOf]. rewrite Hc. cbn [option_map]. rewrite Nat.add_0_r, head_app, offset_app.
    rewrite findOneOf_app by (apply clock_no; repeat constructor; cbn; lia).
    cbn [findOneOf]. change (existsb (Z.eqb 46) (pat ".")) with true. cbn [option_map]. rewrite Nat.add_0_r, head_app, offset_app.
    assert (Ft : forall z, tparse "%f1" (46 :: z) = Ok (false, mkTp [] [])).
    { intros z. unfold tparse, run. cbn [length pat]. replace (4 * 3 + S (length z) + 20)%nat with (S (S (S (S (length z + 29))))) by lia. reflexivity. }
    rewrite Ft. cbn [obind]. rewrite clock_ok. reflexivity.
  Qed.
End ISO.

(** ** Digits of a number *)
Definition twoZ (z : Z) : list Z := map Z.of_N (two z).
Definition fourZ (z : Z) : list Z := map Z.of_N (four z).
Lemma twoZ_eq z : 0 <= z < 100 -> twoZ z = [48 + z / 10; 48 + z mod 10].
Proof. intros B. unfold twoZ, two. cbn [map]. rewrite !Z2N.id by lia. reflexivity. Qed.
Lemma twoZ_num z : 0 <= z < 100 -> num (twoZ z) /\ decimal (twoZ z) = z /\ length (twoZ z) = 2%nat.
Proof.
  intros B. rewrite twoZ_eq by exact B.
  assert (0 <= z / 10 < 10) by lia. assert (0 <= z mod 10 < 10) by lia.
  assert (E : decimal [48 + z / 10; 48 + z mod 10] = z) by (unfold decimal; cbn [fold_left]; lia).
  split; [|split; [exact E|reflexivity]]. split; [|rewrite E; lia].
  split; [easy|]. repeat constructor; unfold TextParser_Spec.digit; lia.
Qed.
Lemma fourZ_num z : 0 <= z < 10000 -> num (fourZ z) /\ decimal (fourZ z) = z /\ length (fourZ z) = 4%nat.
Proof.
  intros B. unfold fourZ, four. rewrite map_app. fold (twoZ (z / 100)) (twoZ (z mod 100)).
  rewrite !twoZ_eq by lia. cbn [app].
  assert (0 <= z / 100 / 10 < 10) by lia. assert (0 <= (z / 100) mod 10 < 10) by lia.
  assert (0 <= z mod 100 / 10 < 10) by lia. assert (0 <= (z mod 100) mod 10 < 10) by lia.
  match goal with |- num ?l /\ _ => assert (E : decimal l = z) by (unfold decimal; cbn [fold_left]; lia) end.
  split; [|split; [exact E|reflexivity]]. split; [|rewrite E; lia].
  split; [easy|]. repeat constructor; unfold TextParser_Spec.digit; lia.
Qed.

(** ** The patterns of the times without colons *)
Lemma parseNumber_digits ds st : numeral ds ->
  exists m, parseNumber ds None false 10 st = (true, m, [], appData st ds).
Proof.
  intros [N F]. pose proof (number_ok false 10 TextParser_Spec.digit st ds None digit_check) as Q.
  assert (S_ : forall c, sign c = true -> TextParser_Spec.digit c = false) by (intros c; unfold sign, TextParser_Spec.digit; lia).
  specialize (Q S_). destruct (parseNumber ds None false 10 st) as [[[ok m] s'] st'].
  pose proof (munch_digits ds [] F I) as E. rewrite app_nil_r in E.
  assert (E' : munch_number false TextParser_Spec.digit None ds = Some (ds, [])).
  { unfold munch_number. destruct ds as [|c ds]; [easy|]. rewrite andb_false_r, E. reflexivity. }
  rewrite E' in Q. destruct Q as (-> & -> & ->). eauto.
Qed.
Lemma basic_fail tail ds f st : numeral ds -> exists st',
  TextParser_Model.parse [10] [] (S (S (S (S (S (S f)))))) (pat "%u(2,2)u1" ++ tail) ds st = Ok (false, [], st').
Proof.
  intros N. change (pat "%u(2,2)u1" ++ tail) with (37 :: 117 :: 40 :: ([50] ++ 44 :: [50] ++ 41 :: (117 :: 49 :: tail))).
  rewrite parse_S. change (37 =? 37) with true. change (escaped 117) with false. cbv iota.
  rewrite arg_custom by tauto. change (117 =? 105) with false. change (negb (117 =? 117)) with false.
  change (117 =? 120) with false. change (117 =? 111) with false. cbv iota. change (rmax (newStep st)) with (@None nat).
  destruct (parseNumber_digits ds st N) as [mx ->]. cbn [negb]. cbv iota.
  match goal with |- context [if ?b then _ else _] => destruct b end; [eauto|].
  rewrite arg_range. rewrite range_minmax by (apply num1; reflexivity). cbn [obind].
  rewrite arg_custom by tauto. cbn [parseNumber]. change (117 =? 105) with false. cbv iota.
  match goal with |- context [parseNumber [] ?a ?b ?c ?d] => assert (E : parseNumber [] a b c d = (false, a, [], d)) by reflexivity end.
  rewrite E. cbn [negb]. eauto.
Qed.
Lemma basic4 ds : numeral ds -> exists st, tparse "%u(2,2)u1%%(2,2)u2" ds = Ok (false, st).
Proof.
  intros N. unfold tparse, run. change (pat "%u(2,2)u1%%(2,2)u2") with (pat "%u(2,2)u1" ++ pat "%%(2,2)u2").
  match goal with |- context [parse _ _ (4 * ?x + ?y + 20)%nat] => replace (4 * x + y + 20)%nat with (S (S (S (S (S (S (4 * x + y + 14))))))) by lia end.
  match goal with |- context [parse _ _ (S (S (S (S (S (S ?f)))))) (_ ++ ?t)] => destruct (basic_fail t ds f (mkTp [] []) N) as [st ->] end.
  cbn [obind]. eauto.
Qed.
Lemma basic6 ds : numeral ds -> exists st, tparse "%u(2,2)u1%%(2,2)u2%%(2,2)u3" ds = Ok (false, st).
Proof.
  intros N. unfold tparse, run. change (pat "%u(2,2)u1%%(2,2)u2%%(2,2)u3") with (pat "%u(2,2)u1" ++ pat "%%(2,2)u2%%(2,2)u3").
  match goal with |- context [parse _ _ (4 * ?x + ?y + 20)%nat] => replace (4 * x + y + 20)%nat with (S (S (S (S (S (S (4 * x + y + 14))))))) by lia end.
  match goal with |- context [parse _ _ (S (S (S (S (S (S ?f)))))) (_ ++ ?t)] => destruct (basic_fail t ds f (mkTp [] []) N) as [st ->] end.
  cbn [obind]. eauto.
Qed.
Lemma clock_throws timegm ds : numeral ds -> length ds = 4%nat \/ length ds = 6%nat -> clockPart timegm ds = Throw.
Proof.
  intros N [L|L]; unfold clockPart; rewrite L; cbn [Nat.eqb].
  - destruct (basic4 ds N) as [st ->]. reflexivity.
  - destruct (basic6 ds N) as [st ->]. reflexivity.
Qed.

(** ** Zones *)
Definition zItems1 : list item := [U "1" false].
Definition zItems2 : list item := [U2 "1" true; U2 "2" false].
Definition zItems3 : list item := [U "1" true; Text 58; U "2" false].
Lemma z1_wf : wf zItems1. Proof. unfold zItems1, U. wf_tac. Qed.
Lemma z2_wf : wf zItems2. Proof. unfold zItems2, U2. wf_tac. Qed.
Lemma z3_wf : wf zItems3. Proof. unfold zItems3, U. wf_tac. Qed.
Lemma zone_hours h : num h -> zoneOffset h = Ok (intervalMin (u64 (decimal h * 60))).
Proof.
  intros [N B]. unfold zoneOffset. pose proof (tparse_ok "%u1" zItems1 eq_refl z1_wf h) as Q.
  unfold zItems1 in Q. rewrite u_end in Q by exact N. rewrite sm_end in Q. cbn [addf option_map] in Q.
  destruct Q as (st & E & R). rewrite E. cbn [obind fields].
  rewrite (resultNat_ok st 1 h) by first [assumption|apply R; [lia|reflexivity]]. reflexivity.
Qed.
Lemma smatch_nil s : smatch [] s = match s with [] => Some [] | _ => None end.
Proof. now destruct s. Qed.
Lemma zone_colon h m : num h -> num m -> length h = 2%nat ->
  zoneOffset (h ++ 58 :: m) = Ok (intervalMin (u64 (decimal h * 60 + decimal m))).
Proof.
  intros [H1 H2] [M1 M2] L. unfold zoneOffset.
  pose proof (tparse_ok "%u1" zItems1 eq_refl z1_wf (h ++ 58 :: m)) as Q.
  unfold zItems1 in Q. rewrite sm_u, smatch_nil in Q by (auto; reflexivity). cbn [addf option_map] in Q.
  destruct Q as (st & E). rewrite E. cbn [obind]. clear st E.
  pose proof (tparse_ok "%(2,2)u1%%(2,2)u2" zItems2 eq_refl z2_wf (h ++ 58 :: m)) as Q.
  assert (X : smatch zItems2 (h ++ 58 :: m) = None).
  { destruct h as [|a [|b [|]]]; try discriminate L. destruct H1 as [_ F].
    apply Forall_cons_iff in F as [Fa F]. apply Forall_cons_iff in F as [Fb _].
    unfold zItems2, U2. rewrite smatch_take by easy. cbn [take hi app].
    change (number (pat "2")) with 2%nat.
    assert (E1 : munch_number false TextParser_Spec.digit (Some 2%nat) (a :: b :: 58 :: m) = Some ([a; b], 58 :: m)).
    { unfold munch_number. rewrite andb_false_r. cbn [munch option_map Nat.eqb Nat.pred]. now rewrite Fa, Fb. }
    rewrite E1. cbn [lo length]. change (2 <=? 2)%nat with true. cbv iota. rewrite smatch_take by easy. cbn [take hi].
    assert (E2 : forall k, munch_number false TextParser_Spec.digit (Some k) (58 :: m) = None).
    { intros k. unfold munch_number. rewrite andb_false_r. destruct k; reflexivity. }
    rewrite E2. now destruct (_ <=? _)%nat. }
  rewrite X in Q. destruct Q as (st & E). rewrite E. cbn [obind]. clear st E.
  pose proof (tparse_ok "%u1%:%u2" zItems3 eq_refl z3_wf (h ++ 58 :: m)) as Q.
  unfold zItems3 in Q. rewrite sm_u in Q by (auto; reflexivity). rewrite sm_text, u_end, sm_end in Q by exact M1. cbn [addf option_map] in Q.
  destruct Q as (st & E & R). rewrite E. cbn [obind fields].
  rewrite (resultNat_ok st 1 h), (resultNat_ok st 2 m) by first [assumption|apply R; [lia|reflexivity]]. reflexivity.
Qed.

(** ** The texts of the specification *)
From Verif Require Import StampParse_Spec TimeStamp_Props.

Lemma spaces_blank t : spaces t -> Forall (fun c => blank c = true) t.
Proof. apply Forall_impl. intros c. unfold blank. lia. Qed.
Lemma chars_app a b : chars (a ++ b) = chars a ++ chars b.
Proof. apply map_app. Qed.
Lemma chars_ymd d : chars (ymd d) = dateText (fourZ (Date_Spec.year d)) (twoZ (Date_Spec.month d)) (twoZ (Date_Spec.day d)).
Proof. unfold ymd. rewrite !chars_app. reflexivity. Qed.
Lemma chars_clock h m s : chars (clock h m s) = clockText (twoZ h) (twoZ m) (twoZ s).
Proof. unfold clock. rewrite !chars_app. reflexivity. Qed.

Lemma year_days n e : epoch e -> Date_Spec.year (Date_Spec.date_after n) < 10000 -> Z.of_nat n - Z.of_nat e < 3700000.
Proof.
  intros E Y. destruct (Z_lt_ge_dec (Z.of_nat n) (Date_Proof.ydays 10000)) as [L|L].
  - change (Date_Proof.ydays 10000) with 3652425 in L. lia.
  - pose proof (year_ge n 10000 ltac:(lia) ltac:(lia)). lia.
Qed.

Section Facts.
  Variables (timegm : tm -> Z) (e n : nat) (h m s : Z).
  Hypotheses (T : timegm_ok timegm) (E : epoch e) (TD : time_of_day h m s).
  Let d := Date_Spec.date_after n.
  Hypothesis (Y : 1970 <= Date_Spec.year d < 10000).

  Lemma ymd_num : num (fourZ (Date_Spec.year d)) /\ decimal (fourZ (Date_Spec.year d)) = Date_Spec.year d
    /\ length (fourZ (Date_Spec.year d)) = 4%nat
    /\ num (twoZ (Date_Spec.month d)) /\ decimal (twoZ (Date_Spec.month d)) = Date_Spec.month d /\ length (twoZ (Date_Spec.month d)) = 2%nat
    /\ num (twoZ (Date_Spec.day d)) /\ decimal (twoZ (Date_Spec.day d)) = Date_Spec.day d /\ length (twoZ (Date_Spec.day d)) = 2%nat.
  Proof using Y.
    pose proof (day_of n) as [M D]. fold d in M, D.
    destruct (fourZ_num (Date_Spec.year d) ltac:(lia)) as (A1 & A2 & A3).
    destruct (twoZ_num (Date_Spec.month d) ltac:(lia)) as (B1 & B2 & B3).
    destruct (twoZ_num (Date_Spec.day d) ltac:(lia)) as (C1 & C2 & C3). auto 20.
  Qed.
  Lemma hms_num : num (twoZ h) /\ decimal (twoZ h) = h /\ length (twoZ h) = 2%nat
    /\ num (twoZ m) /\ decimal (twoZ m) = m /\ length (twoZ m) = 2%nat
    /\ num (twoZ s) /\ decimal (twoZ s) = s /\ length (twoZ s) = 2%nat.
  Proof using TD.
    destruct TD as (Hh & Hm & Hs).
    destruct (twoZ_num h ltac:(lia)) as (A1 & A2 & A3). destruct (twoZ_num m ltac:(lia)) as (B1 & B2 & B3).
    destruct (twoZ_num s ltac:(lia)) as (C1 & C2 & C3). auto 20.
  Qed.

  Lemma full_stamp : exists a, fromYMDhms timegm (Date_Spec.year d) (Date_Spec.month d) (Date_Spec.day d) h m s = Ok a
    /\ stamp_ok a /\ millis a = instant e n h m s.
  Proof using T E TD Y.
    destruct TD as (Hh & Hm & Hs). pose proof (year_days n e E (proj2 Y)).
    exact (stamp_calendar timegm e n h m s T E Hh Hm Hs (proj1 Y) ltac:(lia)).
  Qed.
  Lemma midnight_stamp : exists a, fromYMDhms timegm (Date_Spec.year d) (Date_Spec.month d) (Date_Spec.day d) 0 0 0 = Ok a
    /\ stamp_ok a /\ day a = Z.of_nat n - Z.of_nat e /\ millis a = instant e n 0 0 0.
  Proof using T E Y.
    clear TD h m s. pose proof (year_days n e E (proj2 Y)).
    destruct (stamp_calendar timegm e n 0 0 0 T E ltac:(lia) ltac:(lia) ltac:(lia) (proj1 Y) ltac:(lia)) as (a & Q & [O1 O2] & M).
    exists a. split; [exact Q|]. split; [split; assumption|]. split; [|exact M]. unfold millis in M. lia.
  Qed.
  Lemma clock_stamp : exists a, fromYMDhms timegm 0 0 0 h m s = Ok a
    /\ stamp_ok a /\ day a = 0 /\ millis a = h * 3600000 + m * 60000 + s * 1000.
  Proof using TD.
    destruct TD as (Hh & Hm & Hs).
    destruct (stamp_offset timegm 0 0 h m s ltac:(lia) ltac:(lia) ltac:(lia) ltac:(lia) ltac:(lia)) as (a & Q & [O1 O2] & M).
    exists a. split; [exact Q|]. split; [split; assumption|]. unfold millis in *. split; lia.
  Qed.
  Lemma add_zero a : stamp_ok a -> day a < 2 ^ 31 - 1 -> op_add a (intervalMSec 0) = Ok a.
  Proof using.
    intros O B. assert (Z0 : intervalMSec 0 = ts_new) by reflexivity. rewrite Z0.
    destruct (add_ok a ts_new O ltac:(unfold stamp_ok; cbn; lia)) as (c & Q & Oc & M).
    { destruct O. change (day ts_new) with 0. lia. }
    rewrite Q. f_equal. apply millis_inj; auto. change (millis ts_new) with 0 in M. lia.
  Qed.

  (** a text with any zone *)
  Lemma iso_zone c zone : existsb (Z.eqb c) (pat "Z+-") = true ->
    exists date time, stamp_ok date /\ stamp_ok time /\ day date = Z.of_nat n - Z.of_nat e /\ day time = 0
      /\ millis date + millis time = instant e n h m s
      /\ fromISO8601Time timegm (chars (local_text d h m s) ++ c :: zone) =
         let! t := zonePart time (c :: zone) in op_add date t.
  Proof using T E TD Y.
    intros Hc. destruct ymd_num as (A1 & A2 & A3 & B1 & B2 & B3 & C1 & C2 & C3).
    destruct hms_num as (D1 & D2 & D3 & E1 & E2 & E3 & F1 & F2 & F3).
    destruct midnight_stamp as (date & Qd & Od & Dd & Md). destruct clock_stamp as (time & Qt & Ot & Dt & Mt).
    exists date, time. split; [exact Od|]. split; [exact Ot|]. split; [exact Dd|]. split; [exact Dt|].
    split; [rewrite Md, Mt; unfold instant; lia|].
    unfold local_text. rewrite !chars_app, chars_ymd, chars_clock.
    change (chars (codes "T")) with [84]. rewrite <- !app_assoc. cbn [app].
    rewrite iso_split by assumption. rewrite A2, B2, C2, Qd. cbn [obind].
    rewrite time_split by assumption. rewrite D2, E2, F2, Qt. cbn [obind]. rewrite add_zero by (auto; lia). reflexivity.
  Qed.
  Lemma iso_fraction c zone fr : existsb (Z.eqb c) (pat "Z+-") = true ->
    Forall (fun c => existsb (Z.eqb c) (pat "Z+-") = false) fr ->
    fromISO8601Time timegm (chars (local_text d h m s) ++ 46 :: fr ++ c :: zone) =
    fromISO8601Time timegm (chars (local_text d h m s) ++ c :: zone).
  Proof using TD Y.
    intros Hc Hf. destruct ymd_num as (A1 & A2 & A3 & B1 & B2 & B3 & C1 & C2 & C3).
    destruct hms_num as (D1 & D2 & D3 & E1 & E2 & E3 & F1 & F2 & F3).
    unfold local_text. rewrite !chars_app, chars_ymd, chars_clock.
    change (chars (codes "T")) with [84]. rewrite <- !app_assoc. cbn [app].
    rewrite !iso_split by assumption. now rewrite time_fraction by assumption.
  Qed.
  Lemma iso_other rest : fromISO8601Time timegm (chars (ymd d ++ codes "T") ++ rest) =
    let! date := fromYMDhms timegm (Date_Spec.year d) (Date_Spec.month d) (Date_Spec.day d) 0 0 0 in
    let! time := parse8601time timegm rest in op_add date time.
  Proof using Y.
    clear T E TD h m s. destruct ymd_num as (A1 & A2 & A3 & B1 & B2 & B3 & C1 & C2 & C3).
    rewrite !chars_app, chars_ymd. change (chars (codes "T")) with [84]. rewrite <- !app_assoc. cbn [app].
    rewrite iso_split by assumption. now rewrite A2, B2, C2.
  Qed.
  (** a time part without zone and fraction *)
  Lemma time_plain t : Forall (fun c => existsb (Z.eqb c) (pat "Z+-.") = false) t ->
    parse8601time timegm t = let! res := clockPart timegm t in op_add res (intervalMSec 0).
  Proof using.
    clear T E TD h m s Y. intros F. assert (Q : forall set, (forall c, existsb (Z.eqb c) (pat "Z+-.") = false -> existsb (Z.eqb c) set = false) ->
      findOneOf set t = None).
    { intros set I_. clear -F I_. induction F as [|c t Hc F IH]; [reflexivity|]. cbn [findOneOf]. now rewrite (I_ c Hc), IH. }
    unfold parse8601time. rewrite !Q. 
    - cbn [obind]. destruct (clockPart timegm t) as [x| | |]; [|reflexivity..]. cbn [obind]. now destruct (op_add x (intervalMSec 0)).
    - intros c. cbn [existsb pat]. lia.
    - intros c. cbn [existsb pat]. lia.
  Qed.
End Facts.

(** ** Dates without separators and week dates *)
Lemma sm_limited n cl r k ds rest : (number (pat k) = length ds)%nat -> numeral ds ->
  smatch (Field Unsigned (MinMax (pat k) (pat k)) (pat n) cl :: r) (ds ++ rest) = addf (number (pat n)) ds (smatch r rest).
Proof.
  intros L [N F]. rewrite smatch_take by easy. cbn [take hi lo]. rewrite L.
  assert (Q : forall l, Forall (fun c => TextParser_Spec.digit c = true) l ->
    munch TextParser_Spec.digit (Some (length l)) (l ++ rest) = (l, rest)).
  { induction l as [|c l IH]; intros Fl; cbn [app length].
    - destruct rest; reflexivity.
    - apply Forall_cons_iff in Fl as [Hc Fl]. cbn [munch option_map Nat.eqb Nat.pred]. rewrite Hc, IH by exact Fl. reflexivity. }
  specialize (Q ds F). unfold munch_number. destruct ds as [|c ds]; [easy|]. cbn [app length] in *. rewrite andb_false_r, Q.
  cbn [app length]. now rewrite Nat.leb_refl.
Qed.
Definition bItems : list item :=
  [Field Unsigned (MinMax (pat "4") (pat "4")) (pat "1") true; U2 "2" true; U2 "3" false].
Lemma b_wf : wf bItems. Proof. unfold bItems, U2. wf_tac. Qed.
Definition wItems : list item := [U "1" false; Text 45; Text 87; U "2" false].
Lemma w_wf : wf wItems. Proof. unfold wItems, U. wf_tac. Qed.
Definition oItems : list item := [U "1" false; Text 45; U "2" false].
Lemma o_wf : wf oItems. Proof. unfold oItems, U. wf_tac. Qed.

Lemma numeral_app a b : numeral a -> numeral b -> numeral (a ++ b).
Proof. intros [N F] [_ G]. split; [destruct a; easy|]. apply Forall_app; auto. Qed.
Lemma basic_date timegm y mo d : num y -> num mo -> num d -> length y = 4%nat -> length mo = 2%nat -> length d = 2%nat ->
  parse8601date timegm (y ++ mo ++ d) = fromYMDhms timegm (decimal y) (decimal mo) (decimal d) 0 0 0.
Proof.
  intros [Y1 Y2] [O1 O2] [D1 D2] LY LM LD. unfold parse8601date.
  replace (length (y ++ mo ++ d)) with 8%nat by (rewrite !app_length; lia). cbn [Nat.eqb].
  assert (N : numeral (y ++ mo ++ d)) by (repeat apply numeral_app; assumption).
  pose proof (tparse_ok "%u1-%u2-%u3" dItems eq_refl d_wf (y ++ mo ++ d)) as Q.
  unfold dItems in Q. rewrite u_end, sm_text_fail in Q by first [exact N|exact I]. cbn [addf option_map] in Q. destruct Q as (st & E).
  rewrite E. cbn [obind]. clear st E.
  pose proof (tparse_ok "%u1-W%u2" wItems eq_refl w_wf (y ++ mo ++ d)) as Q.
  unfold wItems in Q. rewrite u_end, sm_text_fail in Q by first [exact N|exact I]. cbn [addf option_map] in Q. destruct Q as (st & E).
  rewrite E. cbn [obind]. clear st E.
  pose proof (tparse_ok "%u1-%u2" oItems eq_refl o_wf (y ++ mo ++ d)) as Q.
  unfold oItems in Q. rewrite u_end, sm_text_fail in Q by first [exact N|exact I]. cbn [addf option_map] in Q. destruct Q as (st & E).
  rewrite E. cbn [obind]. clear st E.
  pose proof (tparse_ok "%(4,4)u1%%(2,2)u2%%(2,2)u3" bItems eq_refl b_wf (y ++ mo ++ d)) as Q.
  unfold bItems, U2 in Q. rewrite <- (app_nil_r d) in Q.
  rewrite !sm_limited, sm_end in Q by first [assumption | rewrite ?LY, ?LM, ?LD; reflexivity]. cbn [addf option_map] in Q.
  rewrite app_nil_r in Q. destruct Q as (st & E & R). rewrite E. cbn [obind fields].
  rewrite (resultNat_ok st 1 y), (resultNat_ok st 2 mo), (resultNat_ok st 3 d) by first [assumption | apply R; [lia|reflexivity]].
  reflexivity.
Qed.
Lemma week_date timegm y w : num y -> num w -> length y = 4%nat -> length w = 2%nat ->
  parse8601date timegm (y ++ 45 :: 87 :: w) = fromYMDhms timegm (decimal y) 1 (u64 (decimal w * 7 - 6)) 0 0 0.
Proof.
  intros [Y1 Y2] [O1 O2] LY LW. unfold parse8601date.
  replace (length (y ++ 45 :: 87 :: w)) with 8%nat by (rewrite !app_length; cbn [length]; lia). cbn [Nat.eqb].
  pose proof (tparse_ok "%u1-%u2-%u3" dItems eq_refl d_wf (y ++ 45 :: 87 :: w)) as Q.
  unfold dItems in Q. rewrite sm_u, sm_text, sm_u_fail in Q by first [exact Y1|reflexivity]. cbn [addf option_map] in Q. destruct Q as (st & E).
  rewrite E. cbn [obind]. clear st E.
  pose proof (tparse_ok "%u1-W%u2" wItems eq_refl w_wf (y ++ 45 :: 87 :: w)) as Q.
  unfold wItems in Q. rewrite sm_u, !sm_text, u_end, sm_end in Q by first [assumption|reflexivity]. cbn [addf option_map] in Q.
  destruct Q as (st & E & R). rewrite E. cbn [obind fields].
  rewrite (resultNat_ok st 1 y), (resultNat_ok st 2 w) by first [assumption | apply R; [lia|reflexivity]].
  reflexivity.
Qed.
