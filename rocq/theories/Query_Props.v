(** Properties of the URL filters and of the query parser (C267 to C276). *)
From Coq Require Import ZArith Lia.
From Verif Require Import Common Query_Spec Query_Model Query_Proof.
Import ListNotations.
Local Open Scope Z_scope.

(** C267: reading through the decoder *)
Theorem url_decode_read : forall t b os l b', escaped t b -> cursors os b = Some (l, b') ->
  exists r, rSteps decoder os (mkRd t newDec None) = Ok (l, r).
Proof.
  intros t b os l b' E C. destruct (rSteps_ok os b (mkRd t newDec None) l b') as (r & Q & _); [split; [reflexivity|exact E]|exact C|]. eauto.
Qed.
Print Assumptions url_decode_read.
(* "a+%4a%C3" is "a J\195" *)
Example decode_read_ex : escaped [97; 43; 37; 52; 97; 37; 67; 51] [97; 32; 74; 195] /\
  cursors [GetNext; Peek; HasItems; GetNext; Peek; GetNext; GetNext; HasItems] [97; 32; 74; 195] =
    Some ([Item 97; Item 32; Yes true; Item 32; Item 74; Item 74; Item 195; Yes false], []).
Proof.
  split; [|reflexivity]. apply esc_plain; [discriminate..|]. apply esc_plus.
  apply (esc_hex 52 97 4 10); [apply (hex_num 4)|apply (hex_lower 10)|]; try (split; discriminate).
  apply (esc_hex 67 51 12 3); [apply (hex_upper 12)|apply (hex_num 3)|constructor]; split; discriminate.
Qed.

(** C268: writing through the decoder *)
Theorem url_decode_write : forall fuel t b, escaped t b -> exists w d,
  wWrites decoder (S fuel) t (newDec, []) = Ok w /\ snd w = b /\ wFlush decoder (S fuel) w = Ok (d, b).
Proof.
  intros fuel t b E. destruct (wWrites_dec_ok fuel t b E newDec [] eq_refl) as (d & Q & P). exists (d, b), d. split; [exact Q|]. split; [reflexivity|].
  unfold wFlush. cbn [fst snd blockFeed]. change (fHas decoder d) with (decHas d). rewrite (decHas_0 d P). reflexivity.
Qed.
Print Assumptions url_decode_write.
Example decode_write_ex : (let! w := wWrites decoder 1 [97; 43; 37; 52; 97; 37; 67; 51] (newDec, []) in Ok (snd w)) = Ok [97; 32; 74; 195].
Proof. reflexivity. Qed.

(** C269: the encoder, in both directions of use *)
Theorem url_encode : forall b, Forall (fun c => 0 <= c < 256) b ->
  (forall os l b', cursors os (percents b) = Some (l, b') -> exists r, rSteps encoder os (mkRd b [] None) = Ok (l, r)) /\
  (forall fuel, (3 <= fuel)%nat -> wWrites encoder fuel b ([], []) = Ok ([], percents b) /\ wFlush encoder fuel ([], percents b) = Ok ([], percents b)) /\
  escaped (percents b) b.
Proof.
  intros b F. split; [|split].
  - intros os l b' C. destruct (eSteps_ok os (percents b) (mkRd b [] None) l b') as (r & Q & _); [split; [exact F|reflexivity]|exact C|]. eauto.
  - intros fuel K. split; [exact (wWrites_enc_ok fuel b K F [])|]. destruct fuel; reflexivity.
  - exact (percents_escaped b F).
Qed.
Print Assumptions url_encode.
Example encode_ex : percents [97; 32; 95; 195] = [97; 37; 50; 48; 95; 37; 67; 51].
Proof. reflexivity. Qed.

(** C270: all fields of a query, in order *)
Theorem query_fields : forall path ts fs, free 63 path -> ts <> [] -> Forall2 (fun t f => field t (fst f) (snd f)) ts fs ->
  exists q, newQp (path ++ 63 :: join ts) = Ok q /\ qpath q = path /\ query q = join ts /\
    forall os l fs', cursors os fs = Some (l, fs') -> exists q', qSteps os q = Ok (l, q') /\ qpath q' = path /\ query q' = join ts.
Proof.
  intros path ts fs F N H. destruct (newQp_ok path ts fs F N) as (q & E & V & P & Q).
  { rewrite <- (app_nil_r ts), <- (app_nil_r fs). apply delivers_app; [exact H|constructor]. }
  exists q. split; [exact E|]. split; [exact P|]. split; [exact Q|]. intros os l fs' C. destruct (qSteps_ok os fs q l fs' V C) as (q' & E' & P' & Q').
  exists q'. split; [exact E'|]. split; congruence.
Qed.
Print Assumptions query_fields.
(* "/p?a=x+y&b&c=" *)
Example fields_ex : Forall2 (fun t f => field t (fst f) (snd f)) [[97; 61; 120; 43; 121]; [98]; [99; 61]] [([97], [120; 32; 121]); ([98], [49]); ([99], [])] /\
  (let! q := newQp ([47; 112] ++ 63 :: join [[97; 61; 120; 43; 121]; [98]; [99; 61]]) in let! (l, q) := qSteps [Peek; GetNext; GetNext; HasItems; GetNext; HasItems] q in Ok l) =
  Ok [Item ([97], [120; 32; 121]); Item ([97], [120; 32; 121]); Item ([98], [49]); Yes true; Item ([99], []); Yes false].
Proof.
  split; [|reflexivity]. assert (S : forall c x, x <> c -> free c [x]) by (intros; repeat constructor; assumption).
  apply Forall2_cons; [|apply Forall2_cons; [|apply Forall2_cons; [|constructor]]]; cbn [fst snd].
  - apply (field_value [97] [120; 43; 121]); [apply S; discriminate..| |].
    + repeat (apply Forall_cons; [discriminate|]). constructor.
    + apply esc_plain; [discriminate..|]. apply esc_plus. apply esc_plain; [discriminate..|constructor].
  - apply field_flag; [discriminate|apply S; discriminate..].
  - apply (field_value [99] []); [apply S; discriminate..|constructor|constructor].
Qed.

(** C271: a path without a query has no fields *)
Theorem query_none_refuted : forall path, free 63 path -> exists q q',
  newQp path = Ok q /\ qpath q = path /\ query q = [] /\ qSteps [HasItems; GetNext; HasItems] q = Ok ([Yes true; Item ([], []); Yes false], q').
Proof.
  intros path F. destruct (newQp_plain path F) as (q & E & V & P & Q).
  destruct (qSteps_ok [HasItems; GetNext; HasItems] _ q [Yes true; Item ([], []); Yes false] [] V eq_refl) as (q' & E' & _). eauto 10.
Qed.
Print Assumptions query_none_refuted.

(** C272: empty parts of a query are skipped.  In fact such a part comes as a field without
    name and value, and the part after it is lost. *)
Theorem query_empty_refuted : forall path ts fs t n v us gs, free 63 path ->
  Forall2 (fun t f => field t (fst f) (snd f)) ts fs -> field t n v -> Forall2 (fun t f => field t (fst f) (snd f)) us gs ->
  exists q, newQp (path ++ 63 :: join (ts ++ [] :: t :: us)) = Ok q /\
    forall os l fs', cursors os (fs ++ ([], []) :: gs) = Some (l, fs') -> exists q', qSteps os q = Ok (l, q').
Proof.
  intros path ts fs t n v us gs F H G K. destruct (newQp_ok path (ts ++ [] :: t :: us) (fs ++ ([], []) :: gs) F) as (q & E & V & _).
  - destruct ts; discriminate.
  - apply delivers_app; [exact H|]. apply (del_empty t n v); [exact G|]. rewrite <- (app_nil_r us), <- (app_nil_r gs). apply delivers_app; [exact K|constructor].
  - exists q. split; [exact E|]. intros os l fs' C. destruct (qSteps_ok os _ q l fs' V C) as (q' & E' & _). eauto.
Qed.
Print Assumptions query_empty_refuted.
(* "?a=1&&b=2&c=3": the field b is lost *)
Example empty_ex : (let! q := newQp [63; 97; 61; 49; 38; 38; 98; 61; 50; 38; 99; 61; 51] in
  let! (l, q) := qSteps [GetNext; GetNext; GetNext; HasItems] q in Ok l) = Ok [Item ([97], [49]); Item ([], []); Item ([99], [51]); Yes false].
Proof. reflexivity. Qed.

(** C273: names are decoded as well.  In fact they are delivered as they stand in the query. *)
Theorem query_name_refuted : forall path n b e v, free 63 path -> free 38 n -> free 61 n -> escaped n b -> free 38 e -> escaped e v -> n <> b ->
  exists q q', newQp (path ++ 63 :: n ++ 61 :: e) = Ok q /\ qSteps [GetNext; HasItems] q = Ok ([Item (n, v); Yes false], q') /\ (n, v) <> (b, v).
Proof.
  intros path n b e v F A B _ D E N.
  destruct (query_fields path [n ++ 61 :: e] [(n, v)] F) as (q & Q & _ & _ & R); [discriminate|apply Forall2_cons; [apply field_value; assumption|constructor]|].
  destruct (R [GetNext; HasItems] _ _ eq_refl) as (q' & R' & _). exists q, q'. split; [exact Q|]. split; [exact R'|congruence].
Qed.
Print Assumptions query_name_refuted.
Example name_ex : escaped [37; 52; 49] [65] /\ [37; 52; 49] <> [65] /\ free 38 [37; 52; 49] /\ free 61 [37; 52; 49].
Proof.
  split; [apply (esc_hex 52 49 4 1); [apply (hex_num 4)|apply (hex_num 1)|constructor]; split; discriminate|]. split; [discriminate|].
  split; repeat (apply Forall_cons; [discriminate|]); constructor.
Qed.

(** C274: a value with a malformed escape is refused.  In fact other digits are taken as if they
    were digits, and an escape at the end without digits takes those of the escape before it, or
    characters that were never set. *)
Theorem url_malformed_refuted :
  (forall x y t b, escaped t b -> exists c, decode (37 :: x :: y :: t) = Ok (c :: b)) /\
  (forall t b, escaped t b -> free 37 t -> decode (t ++ [37]) = Undef) /\
  (forall t b x y h l u c, escaped t b -> hexdigit x h -> hexdigit y l -> escaped u c -> free 37 u ->
     decode (t ++ 37 :: x :: y :: u ++ [37]) = Ok (b ++ 16 * h + l :: c ++ [16 * h + l])).
Proof. split; [exact wrong_digits|]. split; [exact lone_undef|exact lone_again]. Qed.
Print Assumptions url_malformed_refuted.
(* "%z!" *)
Example malformed_ex : decode [37; 122; 33] = Ok [33].
Proof. reflexivity. Qed.
(* "?a=%" at the parser *)
Example lone_ex : newQp [63; 97; 61; 37] = Undef.
Proof. reflexivity. Qed.

(** C275: blockRead without readAll stops at the end of the source.  In fact it always fills the
    buffer: the last byte is repeated. *)
Theorem filter_block_end_refuted : forall t b c buf, escaped t (b ++ [c]) -> (length b + 1 < length buf)%nat ->
  exists r, blockRead decoder (length buf) false buf (mkRd t newDec None) = Ok (r, b ++ [c] ++ repeat c (length buf - length b - 1)).
Proof.
  intros t b c buf E L. destruct buf as [|x buf]; [cbn [length] in L; lia|]. set (buf' := x :: buf) in *.
  assert (B : blockRead decoder (length buf') false buf' (mkRd t newDec None) = blockLoop decoder (length buf') false (length buf') t newDec []) by (subst buf'; destruct buf as [|? []]; reflexivity).
  rewrite B. clear B. assert (K : exists n, length buf' = S n) by (exists (length buf); reflexivity). destruct K as (n & K). rewrite K in *.
  destruct (b ++ [c]) as [|c1 b1] eqn:Q; [destruct b; discriminate|].
  destruct (fetch_ok t c1 b1 newDec E eq_refl) as (t' & d' & d'' & B & _ & O & S' & E').
  cbn [blockLoop]. change (fHas decoder newDec) with false. cbv iota. rewrite B. rewrite (output_once _ d'' c1 [] S' d' O). cbn [obind negb andb app length].
  assert (LB : (length b1 = length b)%nat) by (apply (f_equal (@length Z)) in Q; rewrite app_length in Q; cbn [length] in Q; lia).
  assert (LC : last b1 c1 = c) by (assert (W : last (c1 :: b1) 0 = c) by (rewrite <- Q; apply last_last); destruct b1; cbn [last] in *; [exact W|];
    rewrite <- W; clear; revert z; induction b1; intros; [reflexivity|]; cbn [last]; apply IHb1).
  destruct (Nat.ltb_spec 1 (S n)) as [G|G]; [|lia].
  destruct (loop_ok b1 n (S n) t' d'' c1 [c1] S' E') as (d3 & R); [cbn [length]; lia..|]. rewrite R. eexists. do 2 f_equal.
  rewrite LC. cbn [length]. replace (S n - 1 - length b1)%nat with (S n - length b - 1)%nat by lia.
  change ([c1] ++ b1 ++ repeat c (S n - length b - 1)) with ((c1 :: b1) ++ repeat c (S n - length b - 1)). rewrite <- Q, <- app_assoc. reflexivity.
Qed.
Print Assumptions filter_block_end_refuted.
Example block_end_ex : (let! (r, l) := blockRead decoder 5 false [0; 0; 0; 0; 0] (mkRd [97; 98] newDec None) in Ok l) = Ok [97; 98; 98; 98; 98].
Proof. reflexivity. Qed.

(** C276: blockRead with readAll fills the buffer, beginning with an item that was peeked.  In
    fact one byte is read, and the peeked one is lost. *)
Theorem filter_block_all_refuted : forall t c b x y z buf, escaped t (c :: b) ->
  (exists r, blockRead decoder 1 true (x :: buf) (mkRd t newDec None) = Ok (r, [c])) /\
  (forall d b', b = d :: b' -> exists r r', rPeek decoder (mkRd t newDec None) = Ok (r, c) /\ blockRead decoder 1 true (x :: y :: z :: buf) r = Ok (r', [x; d])).
Proof.
  intros t c b x y z buf E. destruct (fetch_ok t c b newDec E eq_refl) as (t' & d' & d'' & B & H & O & S' & E'). split.
  - exists (mkRd t' d'' None).
    assert (Q : blockRead decoder 1 true (x :: buf) (mkRd t newDec None) = blockLoop decoder 1 true (length (x :: buf)) t newDec []) by (destruct buf as [|? []]; reflexivity).
    rewrite Q. cbn [blockLoop]. change (fHas decoder newDec) with false. cbv iota. rewrite B, (output_once _ d'' c [] S' d' O). reflexivity.
  - intros d b1 ->. destruct (fetch_ok t' d b1 d'' E') as (t2 & e' & e'' & B2 & H2 & O2 & S2 & E2); [apply S'|].
    exists (mkRd t' d'' (Some c)), (mkRd t2 e'' None). split.
    + unfold rPeek, getBuffer. cbn [got flt src]. change (fHas decoder newDec) with false. cbv iota. rewrite B.
      change (fHas decoder d') with (decHas d'). rewrite H. change (fOutput decoder d') with (decOutput d'). rewrite O. reflexivity.
    + cbn [blockRead got src flt blockLoop]. change (fHas decoder d'') with (decHas d''). rewrite decHas_0 by apply S'. rewrite B2, (output_once _ e'' d [x] S2 e' O2). reflexivity.
Qed.
Print Assumptions filter_block_all_refuted.
Example block_all_ex : (let! (r, c) := rPeek decoder (mkRd [97; 98; 99; 100] newDec None) in let! (r, l) := blockRead decoder 1 true [1; 2; 3] r in Ok l) = Ok [1; 98].
Proof. reflexivity. Qed.
