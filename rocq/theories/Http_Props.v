(** Properties of the HTTP client (C247-C266). *)
From Coq Require Import ZArith String Lia ZifyBool.
From Verif Require Import Common IntText_Spec IntText_Model IntText_Proof Str_Spec Http_Spec Http_Model Http_Proof.
Import ListNotations.
Local Open Scope Z_scope.

(** ** requests *)

(** between two requests: no field is set and nothing waits in the buffer *)
Definition idle (r : req) : Prop := hdrs r = [] /\ sent r = false /\ chunk r = [].
(** [hs] are the fields that [calls] have set, every name once *)
Definition fields_of (calls hs : list (list Z * list Z)) : Prop :=
  in_order hs /\ forall k, Forall (fun c => c <> 9) k -> first_value k hs = last_value k calls.
Definition prepare (m p : list Z) (calls : list (list Z * list Z)) (r : req) : req := addHeaders calls (setPath p (setMethod m r)).

Lemma prepare_eq m p calls r : hdrs r = [] -> exists h, prepare m p calls r = mkReq m p h (sent r) (chunk r) (maxChunk r) (out r) /\
  in_order h /\ forall k, hfind k h = last_value k calls.
Proof.
  intros H. destruct (addHeaders_eq calls (setPath p (setMethod m r))) as (h & E & O & F).
  exists h. split; [exact E|]. cbn [hdrs setPath setMethod] in *. rewrite H in *. split; [exact (O I)|].
  intros k. rewrite F. destruct (last_value k calls); reflexivity.
Qed.
Lemma prepare_body m p calls r : hdrs r = [] -> exists h,
  beginBody (prepare m p calls r) = mkReq m p h true (chunk r) (maxChunk r) (out r ++ request_head m p h) /\
  fields_of (calls ++ [(TE, tx "chunked")]) h.
Proof.
  intros H. destruct (prepare_eq m p calls r H) as (h & E & O & F). exists (bodyMap h). unfold beginBody.
  rewrite sendHeaders_eq, E. cbn [method path hdrs sent chunk maxChunk out]. split; [reflexivity|]. split.
  - apply herase_order, hreplace_order, O.
  - intros k T. rewrite <- hfind_first. unfold bodyMap. rewrite herase_find, hreplace_find, F, last_value_snoc.
    destruct (text_eqb_spec k (tx "Content-Length" ++ [9])) as [->|_]; [|reflexivity].
    exfalso. apply Forall_app in T as (_ & T). apply Forall_cons_iff in T as (T & _). apply T. reflexivity.
Qed.

(** C247: a request with a body of unknown length.  Whatever is written in whatever pieces,
    the output is the request line, the fields, and the chunked coding of the written bytes;
    then the object is ready for the next request. *)
Theorem http_chunked_request : forall (r : req) (m p : list Z) (calls : list (list Z * list Z)) (os : list bop), idle r ->
  Z.of_nat (length (written os)) < 2 ^ 64 ->
  exists r' hs t, (let! r1 := bsteps os (beginBody (prepare m p calls r)) in reset r1) = Ok r' /\
    out r' = out r ++ request_head m p hs ++ t /\ fields_of (calls ++ [(tx "Transfer-Encoding", tx "chunked")]) hs /\
    chunked any_size (written os) t /\ idle r'.
Proof.
  intros r m p calls os (H & S & C) L. destruct (prepare_body m p calls r H) as (h & E & F). rewrite E.
  destruct (bsteps_ok m p h (out r ++ request_head m p h) os [] (mkReq m p h true (chunk r) (maxChunk r) (out r ++ request_head m p h))) as (r1 & E1 & I1).
  - repeat split. exists [], []. cbn [chunk out]. rewrite C. split; [reflexivity|]. split; [intros b t X; exact X|rewrite app_nil_r; reflexivity].
  - exact L.
  - rewrite E1. cbn [obind app] in *. destruct (reset_ok _ _ _ _ _ _ I1 L) as (n & t & -> & T). eexists _, h, t. split; [reflexivity|].
    cbn [out]. rewrite <- app_assoc. split; [reflexivity|]. split; [exact F|]. split; [exact T|]. repeat split.
Qed.
Print Assumptions http_chunked_request.
Example http_chunked_request_holds :
  (let! r := bsteps [MaxChunk 2; Write 97; Write 98; Write 99; Flush; Flush] (beginBody (prepare (tx "PUT") (tx "/x") [(tx "B", tx "1"); (tx "A", tx "2"); (tx "B", tx "3")] newReq)) in
   let! r := reset r in Ok (out r)) =
  Ok (tx "PUT /x HTTP/1.1" ++ crlf ++ tx "A: 2" ++ crlf ++ tx "B: 3" ++ crlf ++ tx "Transfer-Encoding: chunked" ++ crlf ++ crlf ++
      tx "2" ++ crlf ++ tx "ab" ++ crlf ++ tx "1" ++ crlf ++ tx "c" ++ crlf ++ tx "0" ++ crlf ++ crlf).
Proof. vm_compute. reflexivity. Qed.

(** C248: a request with a body given at once, or with none *)
Theorem http_send : forall (r : req) (m p data : list Z) (calls : list (list Z * list Z)), idle r -> Z.of_nat (length data) < 2 ^ 64 ->
  (exists r' hs n, send data (prepare m p calls r) = Ok r' /\ out r' = out r ++ request_head m p hs ++ data /\
     numeral 10 n (Z.of_nat (length data)) /\ fields_of (calls ++ [(tx "Content-Length", n)]) hs /\ idle r') /\
  (exists r' hs, sendEmpty (prepare m p calls r) = Ok r' /\ out r' = out r ++ request_head m p hs /\ fields_of calls hs /\ idle r').
Proof.
  intros r m p data calls (H & S & C) L. destruct (prepare_eq m p calls r H) as (h & E & O & F). rewrite E. split.
  - unfold send. destruct (formatU_ok 10 ltac:(lia) false (Z.of_nat (length data))) as (n & -> & N & _); [lia|]. cbn [obind].
    rewrite sendHeaders_eq. unfold reset. cbn [setSent sendString addHeader sent obind method path hdrs chunk maxChunk out].
    eexists _, (hreplace (tx "Content-Length") n h), n. split; [reflexivity|]. cbn [out]. rewrite <- app_assoc. split; [reflexivity|]. split; [exact N|].
    split; [|repeat split; exact C]. split; [apply hreplace_order, O|]. intros k _. rewrite <- hfind_first, hreplace_find, F, last_value_snoc. reflexivity.
  - unfold sendEmpty. rewrite sendHeaders_eq. unfold reset. cbn [setSent sendString addHeader sent obind method path hdrs chunk maxChunk out].
    eexists _, h. split; [reflexivity|]. cbn [out]. split; [reflexivity|]. split; [|repeat split; exact C].
    split; [exact O|]. intros k _. rewrite <- hfind_first. apply F.
Qed.
Print Assumptions http_send.
Example http_send_holds :
  (let! r := send (tx "hello, world") (prepare (tx "POST") (tx "/") [(tx "Host", tx "h")] newReq) in Ok (out r)) =
  Ok (tx "POST / HTTP/1.1" ++ crlf ++ tx "Content-Length: 12" ++ crlf ++ tx "Host: h" ++ crlf ++ crlf ++ tx "hello, world").
Proof. vm_compute. reflexivity. Qed.

(** C249 is false: the length field cannot be set by the user in a chunked request, it is
    documented; but a length field that was set is sent beside the chunked coding. *)
Theorem http_both_lengths_refuted : forall (r : req) (m p : list Z) (calls : list (list Z * list Z)) (n : list Z), idle r ->
  last_value (tx "Content-Length") calls = Some n ->
  exists hs, out (beginBody (prepare m p calls r)) = out r ++ request_head m p hs /\
    first_value (tx "Content-Length") hs = Some n /\ first_value (tx "Transfer-Encoding") hs = Some (tx "chunked").
Proof.
  intros r m p calls n (H & S & C) L. destruct (prepare_body m p calls r H) as (h & E & O & F). exists h. rewrite E. split; [reflexivity|].
  rewrite !F, !last_value_snoc; [|repeat (apply Forall_cons; [vm_compute; discriminate|]); constructor..].
  split; [exact L|reflexivity].
Qed.
Print Assumptions http_both_lengths_refuted.
Example http_both_lengths_holds : out (beginBody (prepare (tx "PUT") (tx "/") [(tx "Content-Length", tx "3")] newReq)) =
  tx "PUT / HTTP/1.1" ++ crlf ++ tx "Content-Length: 3" ++ crlf ++ tx "Transfer-Encoding: chunked" ++ crlf ++ crlf.
Proof. vm_compute. reflexivity. Qed.

Lemma writes_wait w : forall r, Z.of_nat (length (chunk r ++ w)) < maxChunk r ->
  bsteps (map Write w) r = Ok (setChunk (chunk r ++ w) r).
Proof.
  induction w as [|c w IH]; intros r L; cbn [map bsteps bstep].
  - rewrite app_nil_r. destruct r; reflexivity.
  - unfold write. cbn [setChunk chunk maxChunk]. rewrite app_length in *. cbn [length] in *.
    destruct (Z.eqb_spec (Z.of_nat (length (chunk r) + 1)) (maxChunk r)) as [Q|_]; [lia|]. cbn [obind].
    rewrite IH; cbn [setChunk chunk maxChunk]; [|rewrite !app_length; cbn [length]; lia]. rewrite <- app_assoc. reflexivity.
Qed.
(** C250 is false: reset drops the request, but not its bytes: what was written before the
    head was sent comes out as the beginning of the body of the next request. *)
Theorem http_leftover_refuted : forall (r : req) (m p : list Z) (calls : list (list Z * list Z)) (w : list Z) (os : list bop), idle r ->
  Z.of_nat (length w) < maxChunk r -> Z.of_nat (length (w ++ written os)) < 2 ^ 64 ->
  exists r1 r' hs t, (let! r1 := bsteps (map Write w) r in reset r1) = Ok r1 /\ out r1 = out r /\
    (let! r2 := bsteps os (beginBody (prepare m p calls r1)) in reset r2) = Ok r' /\
    out r' = out r ++ request_head m p hs ++ t /\ chunked any_size (w ++ written os) t.
Proof.
  intros r m p calls w os (H & S & C) W L. rewrite (writes_wait w r) by (rewrite C; exact W). cbn [obind]. unfold reset at 1.
  cbn [setChunk sent]. rewrite S. cbn [obind chunk maxChunk out]. rewrite C. cbn [app]. exists (mkReq [] [] [] false w (maxChunk r) (out r)).
  destruct (prepare_body m p calls (mkReq [] [] [] false w (maxChunk r) (out r)) eq_refl) as (h & E & F).
  destruct (bsteps_ok m p h (out r ++ request_head m p h) os w (mkReq m p h true w (maxChunk r) (out r ++ request_head m p h))) as (r1 & E1 & I1).
  - repeat split. exists [], []. cbn [chunk out]. split; [reflexivity|]. split; [intros b t X; exact X|rewrite app_nil_r; reflexivity].
  - exact L.
  - destruct (reset_ok _ _ _ _ _ _ I1 L) as (n & t & E2 & T). eexists _, h, t. split; [reflexivity|]. split; [reflexivity|]. split.
    + rewrite E. cbn [chunk maxChunk out]. rewrite E1. cbn [obind]. exact E2.
    + cbn [out]. rewrite <- app_assoc. split; [reflexivity|exact T].
Qed.
Print Assumptions http_leftover_refuted.
Example http_leftover_holds : (let! r := bsteps [Write 97] newReq in let! r := reset r in
  let! r := bsteps [Write 98] (beginBody (prepare (tx "PUT") (tx "/") [] r)) in let! r := reset r in Ok (out r)) =
  Ok (tx "PUT / HTTP/1.1" ++ crlf ++ tx "Transfer-Encoding: chunked" ++ crlf ++ crlf ++ tx "2" ++ crlf ++ tx "ab" ++ crlf ++ tx "0" ++ crlf ++ crlf).
Proof. vm_compute. reflexivity. Qed.

(** C251 is false: bytes that are written without beginBody are sent as chunks after a head
    that does not announce them. *)
Theorem http_unannounced_refuted : forall (r : req) (m p : list Z) (calls : list (list Z * list Z)) (w : list Z), idle r ->
  last_value (tx "Transfer-Encoding") calls = None -> w <> [] -> Z.of_nat (length w) < maxChunk r -> Z.of_nat (length w) < 2 ^ 64 ->
  exists r' hs t, (let! r1 := bsteps (map Write w ++ [Flush]) (prepare m p calls r) in reset r1) = Ok r' /\
    out r' = out r ++ request_head m p hs ++ t /\ first_value (tx "Transfer-Encoding") hs = None /\ chunked any_size w t.
Proof.
  intros r m p calls w (H & S & C) NT N W L. destruct (prepare_eq m p calls r H) as (h & E & O & F). rewrite E, S, C.
  set (r0 := mkReq m p h false [] (maxChunk r) (out r)).
  assert (A : bsteps (map Write w ++ [Flush]) r0 = flush (setChunk w r0)).
  { assert (B : forall os r1 r2, bsteps os r1 = Ok r2 -> bsteps (os ++ [Flush]) r1 = flush r2).
    { induction os as [|o os IH]; intros r1 r2 Q; cbn [app bsteps] in *.
      - injection Q as ->. cbn [bstep]. destruct (flush r2); reflexivity.
      - destruct (bstep o r1); cbn [obind] in *; try discriminate. exact (IH _ _ Q). }
    apply B. rewrite writes_wait by exact W. reflexivity. }
  rewrite A. replace (flush (setChunk w r0)) with (flush (mkReq m p h true w (maxChunk r) (out r ++ request_head m p h))).
  2: { unfold flush. cbn [setChunk sent r0]. rewrite sendHeaders_eq. reflexivity. }
  assert (I0 : inBody m p h (out r ++ request_head m p h) w (mkReq m p h true w (maxChunk r) (out r ++ request_head m p h))).
  { repeat split. exists [], []. split; [reflexivity|]. split; [intros b t X; exact X|rewrite app_nil_r; reflexivity]. }
  destruct (flush_ok _ _ _ _ _ _ I0 L) as (r1 & -> & I1 & _). cbn [obind]. destruct (reset_ok _ _ _ _ _ _ I1 L) as (n & t & -> & T).
  eexists _, h, t. split; [reflexivity|]. cbn [out]. rewrite <- app_assoc. split; [reflexivity|]. split; [|exact T].
  rewrite <- hfind_first, F. exact NT.
Qed.
Print Assumptions http_unannounced_refuted.
Example http_unannounced_holds : (let! r := bsteps [Write 97; Flush] (prepare (tx "PUT") (tx "/") [] newReq) in let! r := reset r in Ok (out r)) =
  Ok (tx "PUT / HTTP/1.1" ++ crlf ++ crlf ++ tx "1" ++ crlf ++ tx "a" ++ crlf ++ tx "0" ++ crlf ++ crlf).
Proof. vm_compute. reflexivity. Qed.

(** ** addresses *)
Definition protocol (t : list Z) : Prop := In t [tx "http"; tx "https"; tx "ws"; tx "wss"].
Definition free_of (c : Z) (t : list Z) : Prop := Forall (fun x => x <> c) t.

Lemma findt_colon p rest : Forall (fun x => x <> 58) p -> findt (tx "://") (p ++ tx "://" ++ rest) = Some (length p).
Proof.
  induction p as [|x p IH]; intros F.
  - change (findt (tx "://") (tx "://" ++ rest) = Some O). change (tx "://") with [58; 47; 47]. reflexivity.
  - apply Forall_cons_iff in F as (A & F). specialize (IH F). change (tx "://") with [58; 47; 47] in *. cbn [app findt prefixb length] in *.
    destruct (Z.eqb_spec 58 x); [subst; contradiction|]. cbn [andb]. rewrite IH. reflexivity.
Qed.
Lemma protocol_ok t : protocol t -> existsb (text_eqb t) [tx "http"; tx "https"; tx "ws"; tx "wss"] = true /\ Forall (fun x => x <> 58) t.
Proof.
  intros H. split.
  - apply existsb_exists. exists t. split; [exact H|apply text_eqb_refl].
  - destruct H as [<-|[<-|[<-|[<-|[]]]]]; repeat (apply Forall_cons; [vm_compute; discriminate|]); constructor.
Qed.
Lemma skipn_proto (p rest : list Z) : skipn (length p + 3) (p ++ tx "://" ++ rest) = rest.
Proof. change (tx "://") with [58; 47; 47]. induction p as [|x p IH]; [reflexivity|]. cbn [length Nat.add app skipn]. exact IH. Qed.
Lemma skipn_here (a b : list Z) : skipn (length a) (a ++ b) = b.
Proof. induction a as [|x a IH]; [reflexivity|]. exact IH. Qed.

(** C252: setUrl of protocol://host/rest *)
Theorem http_set_url : forall (auth : list Z -> list Z) (r : req) (proto host rest : list Z), protocol proto ->
  free_of 47 host -> free_of 64 host -> match rest with [] => True | c :: _ => c = 47 end ->
  exists h, setUrl auth (proto ++ tx "://" ++ host ++ rest) false r =
    (mkReq (method r) (match rest with [] => tx "/" | _ => rest end) h (sent r) (chunk r) (maxChunk r) (out r), true) /\
    forall k, first_value k h = if text_eqb k (tx "Host") then Some host else first_value k (hdrs r).
Proof.
  intros auth r proto host rest P S A R. destruct (protocol_ok proto P) as (X & Y). exists (hreplace (tx "Host") host (hdrs r)). split.
  - unfold setUrl. rewrite (findt_colon proto _ Y), firstn_len, X, skipn_proto. cbn [negb].
    destruct rest as [|c rest].
    + rewrite app_nil_r, (findc_none 47 host S), (findc_none 64 host A). reflexivity.
    + subst c. rewrite (findc_app 47 host rest S), skipn_here, firstn_len, (findc_none 64 host A). reflexivity.
  - intros k. rewrite <- !hfind_first. apply hreplace_find.
Qed.
Print Assumptions http_set_url.
Example http_set_url_holds : setUrl (fun t => t) (tx "https://a.b:80/c?d/e@f") false newReq =
  (mkReq [] (tx "/c?d/e@f") [(tx "Host", tx "a.b:80")] false [] 65536 [], true).
Proof. vm_compute. reflexivity. Qed.

(** C253 is false: an address whose query follows the host directly.  The query becomes a part
    of the Host field and the path loses it. *)
Theorem http_url_query_refuted : forall (auth : list Z -> list Z) (r : req) (proto host query : list Z), protocol proto ->
  free_of 47 host -> free_of 64 host -> free_of 47 query -> free_of 64 query ->
  exists h, setUrl auth (proto ++ tx "://" ++ host ++ [63] ++ query) false r =
    (mkReq (method r) (tx "/") h (sent r) (chunk r) (maxChunk r) (out r), true) /\
    first_value (tx "Host") h = Some (host ++ [63] ++ query).
Proof.
  intros auth r proto host query P S A S' A'.
  destruct (http_set_url auth r proto (host ++ [63] ++ query) [] P) as (h & E & F).
  - apply Forall_app. split; [exact S|]. apply Forall_cons; [discriminate|exact S'].
  - apply Forall_app. split; [exact A|]. apply Forall_cons; [discriminate|exact A'].
  - exact I.
  - exists h. rewrite app_nil_r in E. split; [exact E|]. rewrite F. reflexivity.
Qed.
Print Assumptions http_url_query_refuted.
Example http_url_query_holds : setUrl (fun t => t) (tx "http://a.b?c=d") false newReq =
  (mkReq [] (tx "/") [(tx "Host", tx "a.b?c=d")] false [] 65536 [], true).
Proof. vm_compute. reflexivity. Qed.

(** ** responses *)

(** C254: the head of a response *)
Theorem http_open : forall (fuel k : nat) (s : resp) (version code reason rest : list Z) (fs : list rfield) (v : Z),
  fresh s -> (k < fuel)%nat -> head_ok version code reason fs -> numeral 10 code v -> v < 2 ^ 64 ->
  inp s = concat (repeat crlf k) ++ response_head version code reason fs ++ rest ->
  exists s', open fuel s = Ok (s', v) /\ inp s' = rest /\ getStatusMessage s' = Ok reason /\
    forall n, headerDefined n s' = (if first_value n (map rfield_pair fs) then true else false) /\
      getHeader n s' = match first_value n (map rfield_pair fs) with Some x => x | None => [] end.
Proof.
  intros fuel k s version code reason rest fs v F K O N L I.
  rewrite (open_ok fuel s k version code reason fs v rest F K O N L I). eexists. split; [reflexivity|].
  assert (E : forall s, inp (chooseMode s) = inp s /\ message (chooseMode s) = message s /\ rhdrs (chooseMode s) = rhdrs s).
  { clear. intros s. unfold chooseMode. destruct (text_eqb _ _); [auto|]. destruct (getHeader _ _); auto. }
  destruct (E (headed s rest false fs v (Some reason))) as (A & B & C). rewrite A. split; [reflexivity|].
  unfold getStatusMessage. rewrite B. split; [reflexivity|]. intros n. unfold headerDefined, getHeader. rewrite C, chooseMode_find.
  destruct (first_value n (map rfield_pair fs)); auto.
Qed.
Print Assumptions http_open.
Definition ok200 : list rfield -> list Z := response_head (tx "HTTP/1.1") (tx "200") (tx "All fine").
Example http_open_holds :
  (let! (s, c) := open 2 (newResp (crlf ++ ok200 [mkField (tx "A") (tx "x y") [32; 9] [32]; mkField (tx "A") (tx "z") [] []] ++ tx "body")) in
   let! m := getStatusMessage s in Ok (c, m, getHeader (tx "A") s, inp s)) = Ok (200, tx "All fine", tx "x y", tx "body").
Proof. vm_compute. reflexivity. Qed.

(** C255: a body whose length is announced is read byte by byte, whatever the order of the
    questions; nothing behind it is touched.  reset skips what has not been read. *)
Theorem http_length_body : forall (fuel k : nat) (s : resp) (version code reason cl body rest : list Z) (fs : list rfield) (v : Z) (os : list rop),
  fresh s -> (k < fuel)%nat -> head_ok version code reason fs -> numeral 10 code v -> v < 2 ^ 64 ->
  first_value (tx "Transfer-Encoding") (map rfield_pair fs) = None -> first_value (tx "Content-Length") (map rfield_pair fs) = Some cl ->
  numeral 10 cl (Z.of_nat (length body)) -> Z.of_nat (length body) < 2 ^ 64 - 1 -> (length body < fuel)%nat ->
  inp s = concat (repeat crlf k) ++ response_head version code reason fs ++ body ++ rest -> in_body os body ->
  exists s1 s2 s3, open fuel s = Ok (s1, v) /\ rsteps fuel os s1 = Ok (s2, snd (cursors os body)) /\
    (fst (cursors os body) = [] -> inp s2 = rest) /\
    resetResp fuel s2 = Ok (s3, true) /\ inp s3 = rest /\ fresh s3.
Proof.
  intros fuel k s version code reason cl body rest fs v os F K O N L H1 H2 NB LB FB I IB.
  rewrite (open_ok fuel s k version code reason fs v (body ++ rest) F K O N L I).
  rewrite (choose_limited s (body ++ rest) false fs v (Some reason) cl (Z.of_nat (length body)) H1 H2 NB) by lia.
  eexists _.
  destruct (linv_steps fuel rest os body (chosen s (body ++ rest) false fs v (Some reason) Limited (Z.of_nat (length body)))) as (s2 & E & V & O2 & P2).
  { repeat split; cbn [chosen rlen inp]; lia. }
  { exact IB. }
  assert (LE : forall os b, (length (fst (cursors os b)) <= length b)%nat).
  { clear. induction os as [|o os IH]; intros b; cbn [cursors]; [reflexivity|]. specialize (IH (fst (cursor o b))).
    destruct (cursor o b) as [b1 a] eqn:Q. cbn [fst] in IH. destruct (cursors os b1) as [b2 l]. cbn [fst] in *.
    destruct o; cbn [cursor] in Q; injection Q as <- _; try exact IH. destruct b; cbn [tl length] in *; lia. }
  specialize (LE os body). destruct (linv_drain rest _ fuel s2 V) as (s3 & D & I3); [lia|].
  exists s2. eexists _. split; [reflexivity|]. split; [exact E|]. split.
  - intros Q. rewrite Q in V. destruct V as (_ & _ & _ & X). destruct (cloaded s2); [destruct X as (? & ? & ? & _); discriminate|exact X].
  - unfold resetResp. rewrite O2, P2. cbn [chosen opened parsed andb negb]. destruct V as (_ & R & _). 
    destruct (Z.eqb_spec (rlen s2) naturalNull) as [Q|_]; [unfold naturalNull in Q; lia|]. rewrite D. cbn [obind]. split; [reflexivity|].
    cbn [inp]. split; [exact I3|]. split; reflexivity.
Qed.
Print Assumptions http_length_body.
Example http_length_body_holds :
  (let! (s, _) := open 9 (newResp (ok200 [mkField CL (tx "2") [32] []] ++ tx "abHTTP")) in
   let! (s, l) := rsteps 9 [Peek; HasItems; GetNext] s in let! (s, b) := resetResp 9 s in Ok (l, b, inp s)) =
  Ok ([Byte 97; Yes true; Byte 97], true, tx "HTTP").
Proof. vm_compute. reflexivity. Qed.

(** C256: a chunked body, when the sizes have no small letter but at their first and their last
    place: it is read byte by byte, whatever the chunks and the order of the questions; when
    the end is reported, nothing behind the body is touched. *)
Theorem http_chunked_body : forall (fuel k : nat) (s : resp) (version code reason body text rest : list Z) (fs : list rfield) (v : Z) (os : list rop),
  fresh s -> (k < fuel)%nat -> (2 <= fuel)%nat -> head_ok version code reason fs -> numeral 10 code v -> v < 2 ^ 64 ->
  first_value (tx "Transfer-Encoding") (map rfield_pair fs) = Some (tx "chunked") -> chunked few_small body text ->
  inp s = concat (repeat crlf k) ++ response_head version code reason fs ++ text ++ rest -> in_body os body -> stops os body ->
  exists s1 s2, open fuel s = Ok (s1, v) /\ rsteps fuel os s1 = Ok (s2, snd (cursors os body)) /\
    (In (Yes false) (snd (cursors os body)) -> inp s2 = rest).
Proof.
  intros fuel k s version code reason body text rest fs v os F K K2 O N L H C I IB ST.
  rewrite (open_ok fuel s k version code reason fs v (text ++ rest) F K O N L I).
  rewrite (choose_chunked s (text ++ rest) false fs v (Some reason) H). eexists _.
  destruct (cinv_steps fuel rest os K2 body (chosen s (text ++ rest) false fs v (Some reason) Chunk 0)) as (s2 & E & _ & _ & A & _); [|exact IB|exact ST|].
  { split; [reflexivity|]. split; [reflexivity|]. right. exists [], text. cbn [chosen rlen cloaded inp app]. auto. }
  exists s2. split; [reflexivity|]. split; [exact E|]. intros Q. apply A in Q as (_ & _ & _ & _ & Q). exact Q.
Qed.
Print Assumptions http_chunked_body.
Definition chunkedHead : list Z := ok200 [mkField TE (tx "chunked") [32] []].
Example http_chunked_body_holds :
  (let! (s, _) := open 9 (newResp (chunkedHead ++ tx "2;x=y" ++ crlf ++ tx "ab" ++ crlf ++ tx "01" ++ crlf ++ tx "c" ++ crlf ++ tx "0" ++ crlf ++ crlf ++ tx "HTTP")) in
   let! (s, l) := rsteps 9 [Peek; HasItems; GetNext; GetNext; GetNext; HasItems] s in Ok (l, inp s)) =
  Ok ([Byte 97; Yes true; Byte 97; Byte 98; Byte 99; Yes false], tx "HTTP").
Proof. vm_compute. reflexivity. Qed.

(** C266: a body whose length is not announced lasts to the end of the connection. *)
Theorem http_direct_body : forall (fuel k : nat) (s : resp) (version code reason body : list Z) (fs : list rfield) (v : Z) (os : list rop),
  fresh s -> (k < fuel)%nat -> head_ok version code reason fs -> numeral 10 code v -> v < 2 ^ 64 ->
  first_value (tx "Transfer-Encoding") (map rfield_pair fs) = None -> first_value (tx "Content-Length") (map rfield_pair fs) = None ->
  inp s = concat (repeat crlf k) ++ response_head version code reason fs ++ body -> in_body os body ->
  exists s1 s2, open fuel s = Ok (s1, v) /\ rsteps fuel os s1 = Ok (s2, snd (cursors os body)) /\
    (fst (cursors os body) = [] -> getNext fuel s2 = Throw /\ peek fuel s2 = Throw).
Proof.
  intros fuel k s version code reason body fs v os F K O N L H1 H2 I IB.
  rewrite (open_ok fuel s k version code reason fs v body F K O N L I).
  rewrite choose_direct by assumption. eexists _.
  destruct (dinv_steps fuel os body (chosen s body false fs v (Some reason) Direct naturalNull)) as (s2 & E & M & V); [split; reflexivity|exact IB|].
  exists s2. split; [reflexivity|]. split; [exact E|]. intros Q. rewrite Q in V.
  destruct (cloaded s2) eqn:C; [destruct V as (? & ? & ? & _); discriminate|].
  unfold getNext, peek, load, fetchByte. rewrite M, C, V. split; reflexivity.
Qed.
Print Assumptions http_direct_body.
Example http_direct_body_holds :
  (let! (s, _) := open 9 (newResp (ok200 [] ++ tx "ab")) in let! (s, l) := rsteps 9 [HasItems; GetNext; Peek; GetNext; HasItems; HasItems] s in Ok l) =
  Ok [Yes true; Byte 97; Byte 98; Byte 98; Yes false; Yes false].
Proof. vm_compute. reflexivity. Qed.

Lemma fvalues_mono t : forall n, 0 < n -> Forall (fun x => exists e, digit x e /\ e < 16) t -> n <= fvalues 16 n t.
Proof.
  induction t as [|x t IH]; intros n P F; [cbn; lia|]. apply Forall_cons_iff in F as ((e & D & _) & F). unfold fvalues in *. cbn [fold_left].
  rewrite (digit_digitOf _ _ D). apply digit_range in D. specialize (IH (n * 16 + e) ltac:(lia) F). lia.
Qed.
(** C257 is false: in a chunk size, the digits behind a small letter that is not the first
    digit are ignored.  (The library writes its own sizes in small letters.) *)
Theorem http_chunk_size_refuted : forall (fuel : nat) (s : resp) (a t data : list Z) (v x d w : Z), (1 <= fuel)%nat ->
  mode s = Some Chunk -> eof s = false -> cloaded s = false -> rlen s = 0 ->
  numeral 16 a v -> Forall (fun c => ~ small c) (tl a) -> digit x d -> d < 16 -> small x -> t <> [] ->
  numeral 16 (a ++ [x] ++ t) w -> w < 2 ^ 64 -> inp s = (a ++ [x] ++ t) ++ crlf ++ data ->
  exists s', hasItems fuel s = Ok (true, s') /\ inp s' = data /\ rlen s' = v * 16 + d /\ rlen s' < w.
Proof.
  intros fuel s a t data v x d w F M E C R N S D L X T NW LW I.
  apply numeral_shape in N as (c & e & u & -> & DC & LC & FU & V). cbn [tl] in S.
  destruct (numeral_chars _ _ _ NW) as (_ & FC).
  apply numeral_shape in NW as (c' & e' & u' & Q & DC' & _ & FU' & W). cbn [app] in Q. injection Q as <- <-.
  assert (e' = e) by (apply digit_digitOf in DC; apply digit_digitOf in DC'; congruence). subst e'.
  apply Forall_app in FU' as (_ & FU'). apply Forall_cons_iff in FU' as (_ & FT).
  assert (V0 : 0 <= v).
  { destruct (Z.eq_dec e 0) as [->|NE].
    - rewrite V. clear - FU. assert (forall u n, 0 <= n -> Forall (fun x => exists e, digit x e /\ e < 16) u -> 0 <= fvalues 16 n u).
      { clear. induction u as [|y u IH]; intros n P F; [exact P|]. apply Forall_cons_iff in F as ((e & D & _) & F). unfold fvalues in *. cbn [fold_left].
        rewrite (digit_digitOf _ _ D). apply digit_range in D. apply IH; [lia|exact F]. }
      apply H; [lia|exact FU].
    - apply digit_range in DC. pose proof (fvalues_mono u e ltac:(lia) FU). lia. }
  assert (D10 : 10 <= d) by (unfold small in X; destruct D; lia).
  assert (W' : w = fvalues 16 (v * 16 + d) t).
  { rewrite W, V. unfold fvalues. rewrite fold_left_app. cbn [fold_left app]. rewrite (digit_digitOf _ _ D). reflexivity. }
  assert (LT : v * 16 + d < w).
  { destruct t as [|y t]; [contradiction|]. apply Forall_cons_iff in FT as ((f & DF & _) & FT). rewrite W'. unfold fvalues. cbn [fold_left].
    rewrite (digit_digitOf _ _ DF). apply digit_range in DF. pose proof (fvalues_mono t ((v * 16 + d) * 16 + f) ltac:(lia) FT) as Q. unfold fvalues in Q. lia. }
  assert (P : parseNumber (c :: u ++ [x] ++ t) 16 = v * 16 + d).
  { cbn [parseNumber]. rewrite (digit_digitOf_b 16 c e ltac:(lia) DC LC).
    assert (G : forall u n, Forall (fun c => ~ small c) u -> Forall (fun x => exists e, digit x e /\ e < 16) u ->
      numberLoop 16 (u64 n) (u ++ [x] ++ t) = u64 (fvalues 16 n (u ++ [x]))).
    { clear - D X L. induction u as [|y u IH]; intros n SM F.
      - unfold fvalues. cbn [app numberLoop fold_left]. rewrite (digit_digitOf _ _ D). unfold small in X. destruct D as [d D|d D|d D]; [lia|lia|].
        destruct ((48 <=? 97 + (d - 10)) && (97 + (d - 10) <=? 57)) eqn:Q; [lia|].
        destruct ((65 <=? 97 + (d - 10)) && (97 + (d - 10) <? 65 + 16 - 10)) eqn:Q2; [lia|].
        destruct ((97 <=? 97 + (d - 10)) && (97 + (d - 10) <? 97 + 16 - 10)) eqn:Q3; [|lia].
        replace (u64 n * 16 + (97 + (d - 10)) - 97 + 10) with (u64 n * 16 + d) by lia. apply u64_step.
      - apply Forall_cons_iff in SM as (A & SM). apply Forall_cons_iff in F as ((e & De & Le) & F). unfold fvalues in *. cbn [app numberLoop fold_left].
        rewrite (digit_digitOf _ _ De). unfold small in A. destruct De as [e De|e De|e De]; [| |lia].
        + destruct ((48 <=? 48 + e) && (48 + e <=? 57)) eqn:Q; [|lia].
          replace (u64 n * 16 + (48 + e) - 48) with (u64 n * 16 + e) by lia. rewrite u64_step. apply IH; assumption.
        + destruct ((48 <=? 65 + (e - 10)) && (65 + (e - 10) <=? 57)) eqn:Q; [lia|].
          destruct ((65 <=? 65 + (e - 10)) && (65 + (e - 10) <? 65 + 16 - 10)) eqn:Q2; [|lia].
          replace (u64 n * 16 + (65 + (e - 10)) - 65 + 10) with (u64 n * 16 + e) by lia. rewrite u64_step. apply IH; assumption. }
    replace e with (u64 e) by (apply u64_id; apply digit_range in DC; lia). rewrite G by assumption.
    unfold fvalues. rewrite fold_left_app. cbn [fold_left]. rewrite (digit_digitOf _ _ D). fold (fvalues 16 e u). rewrite <- V. apply u64_id. lia. }
  unfold hasItems. rewrite M, C, R. cbn [orb Z.ltb Z.compare]. unfold openChunk. rewrite chunkLine_status.
  rewrite (statusLine_ok 0 fuel s ((c :: u) ++ [x] ++ t) data F E); [|discriminate|eapply Forall_impl; [|exact FC]; cbn beta; intros; lia|exact I].
  cbn [obind app] in *. rewrite P. cbn [setLen rlen setInp]. destruct (Z.eqb_spec (v * 16 + d) 0); [lia|]. eexists. split; [reflexivity|].
  cbn [setLoaded setLen rlen inp]. auto.
Qed.
Print Assumptions http_chunk_size_refuted.
(** a chunk of 500 bytes, as the library writes it *)
Example http_chunk_size_holds : formatU 500 16 false = Ok (tx "1f4") /\
  (let! (s, _) := open 9 (newResp (chunkedHead ++ tx "1f4" ++ crlf ++ repeat 97 500 ++ crlf ++ tx "0" ++ crlf ++ crlf)) in
   let! (b, s) := hasItems 9 s in Ok (b, rlen s)) = Ok (true, 31).
Proof. split; vm_compute; reflexivity. Qed.

(** C258 is false: after the end of a chunked body has been reported, the question for more
    never returns; and so reset never returns. *)
Theorem http_chunked_end_refuted : forall (fuel k : nat) (s : resp) (version code reason body text rest : list Z) (fs : list rfield) (v : Z) (os : list rop),
  fresh s -> (k < fuel)%nat -> (2 <= fuel)%nat -> head_ok version code reason fs -> numeral 10 code v -> v < 2 ^ 64 ->
  first_value (tx "Transfer-Encoding") (map rfield_pair fs) = Some (tx "chunked") -> chunked few_small body text ->
  inp s = concat (repeat crlf k) ++ response_head version code reason fs ++ text ++ rest -> in_body os body -> stops os body ->
  In (Yes false) (snd (cursors os body)) ->
  exists s1 s2, open fuel s = Ok (s1, v) /\ rsteps fuel os s1 = Ok (s2, snd (cursors os body)) /\
    forall fuel', hasItems fuel' s2 = NoFuel /\ resetResp fuel' s2 = NoFuel.
Proof.
  intros fuel k s version code reason body text rest fs v os F K K2 O N L H C I IB ST Y.
  rewrite (open_ok fuel s k version code reason fs v (text ++ rest) F K O N L I).
  rewrite (choose_chunked s (text ++ rest) false fs v (Some reason) H). eexists _.
  destruct (cinv_steps fuel rest os K2 body (chosen s (text ++ rest) false fs v (Some reason) Chunk 0)) as (s2 & E & O2 & P2 & A & _); [|exact IB|exact ST|].
  { split; [reflexivity|]. split; [reflexivity|]. right. exists [], text. cbn [chosen rlen cloaded inp app]. auto. }
  exists s2. split; [reflexivity|]. split; [exact E|]. specialize (A Y). intros f. split; [exact (cend_stuck f rest s2 A)|].
  unfold resetResp. rewrite O2, P2. pose proof A as (_ & _ & R & _). rewrite R. cbn [chosen opened parsed andb negb].
  change (0 =? naturalNull) with false. cbn match. destruct f as [|f]; [reflexivity|]. cbn [drain]. rewrite (cend_stuck (S f) rest s2 A). reflexivity.
Qed.
Print Assumptions http_chunked_end_refuted.
Example http_chunked_end_holds :
  (let! (s, _) := open 9 (newResp (chunkedHead ++ tx "0" ++ crlf ++ crlf)) in let! (s, l) := rsteps 9 [HasItems] s in Ok l) = Ok [Yes false] /\
  (let! (s, _) := open 9 (newResp (chunkedHead ++ tx "0" ++ crlf ++ crlf)) in let! (s, l) := rsteps 9 [HasItems] s in hasItems 100 s) = NoFuel.
Proof. split; vm_compute; reflexivity. Qed.

(** C259 is false: when the connection is closed instead of an answer, open never returns; when
    it is closed between two chunks, the question for more never returns. *)
Theorem http_closed_refuted : forall (k : nat) (s : resp) (t : list Z), no_cr t -> inp s = concat (repeat crlf k) ++ t ->
  (opened s = false -> forall fuel, open fuel s = NoFuel) /\
  (mode s = Some Chunk -> eof s = false -> cloaded s = false -> rlen s = 0 -> forall fuel, hasItems fuel s = NoFuel).
Proof.
  intros k s t N I. split.
  - intros O fuel. unfold open. rewrite O. rewrite (statusLine_cut k fuel _ t); [reflexivity|reflexivity|exact N|exact I].
  - intros M E C R fuel. unfold hasItems, openChunk. rewrite M, C, R, chunkLine_status. cbn [orb Z.ltb Z.compare].
    rewrite (statusLine_cut k fuel s t E N I). reflexivity.
Qed.
Print Assumptions http_closed_refuted.
Example http_closed_holds : open 100 (newResp []) = NoFuel /\
  (let! (s, _) := open 9 (newResp (chunkedHead ++ tx "1" ++ crlf ++ tx "a" ++ crlf)) in rsteps 100 [GetNext; HasItems] s) = NoFuel.
Proof. split; vm_compute; reflexivity. Qed.

(** C260 is false: the names of the fields are compared with their case.  When all names come in
    small letters, neither field is seen, and all that follows on the connection, the next
    answers too, is read as the body. *)
Definition small_name (t : list Z) : Prop := Forall (fun c => ~ (65 <= c <= 90)) t.
Theorem http_header_case_refuted : forall (fuel k : nat) (s : resp) (version code reason rest : list Z) (fs : list rfield) (v : Z) (os : list rop),
  fresh s -> (k < fuel)%nat -> head_ok version code reason fs -> numeral 10 code v -> v < 2 ^ 64 ->
  Forall (fun f => small_name (fname f)) fs ->
  inp s = concat (repeat crlf k) ++ response_head version code reason fs ++ rest -> in_body os rest ->
  exists s1 s2, open fuel s = Ok (s1, v) /\ rsteps fuel os s1 = Ok (s2, snd (cursors os rest)).
Proof.
  intros fuel k s version code reason rest fs v os F K O N L SN I IB.
  rewrite (open_ok fuel s k version code reason fs v rest F K O N L I).
  assert (A : forall c q, 65 <= c <= 90 -> first_value (c :: q) (map rfield_pair fs) = None).
  { clear - SN. intros c q Hc. induction SN as [|f fs' S SN IH]; [reflexivity|].
    cbn [map first_value rfield_pair]. destruct (text_eqb_spec (c :: q) (fname f)) as [Q|_]; [|exact IH].
    rewrite <- Q in S. apply Forall_cons_iff in S as (S & _). contradiction. }
  rewrite choose_direct by (apply (A 84 _ ltac:(lia)) || apply (A 67 _ ltac:(lia))). eexists _.
  destruct (dinv_steps fuel os rest (chosen s rest false fs v (Some reason) Direct naturalNull)) as (s2 & E & _); [split; reflexivity|exact IB|].
  exists s2. split; [reflexivity|exact E].
Qed.
Print Assumptions http_header_case_refuted.
Example http_header_case_holds :
  (let! (s, _) := open 9 (newResp (ok200 [mkField (tx "content-length") (tx "1") [] []] ++ tx "aHT")) in rsteps 9 [GetNext; HasItems; GetNext] s) =
  (let! (s, _) := open 9 (newResp (ok200 [mkField (tx "content-length") (tx "1") [] []] ++ tx "aHT")) in
   Ok (mkResp (tx "T") false naturalNull 72 false (Some Direct) [(tx "content-length", tx "1")] 200 (Some (tx "All fine")) true true, [Byte 97; Yes true; Byte 72])).
Proof. vm_compute. reflexivity. Qed.

(** C261 is false: reading behind the end of a body of announced length.  There is no exception:
    the first byte of the next answer is taken, and then the body has more bytes again. *)
Theorem http_past_end_refuted : forall (fuel k : nat) (s : resp) (version code reason cl body rest : list Z) (c : Z) (fs : list rfield) (v : Z) (os : list rop),
  fresh s -> (k < fuel)%nat -> head_ok version code reason fs -> numeral 10 code v -> v < 2 ^ 64 ->
  first_value (tx "Transfer-Encoding") (map rfield_pair fs) = None -> first_value (tx "Content-Length") (map rfield_pair fs) = Some cl ->
  numeral 10 cl (Z.of_nat (length body)) -> Z.of_nat (length body) < 2 ^ 64 ->
  inp s = concat (repeat crlf k) ++ response_head version code reason fs ++ body ++ c :: rest -> in_body os body -> fst (cursors os body) = [] ->
  exists s1 s2 s3, open fuel s = Ok (s1, v) /\ rsteps fuel os s1 = Ok (s2, snd (cursors os body)) /\
    getNext fuel s2 = Ok (s3, c) /\ inp s3 = rest /\ hasItems fuel s3 = Ok (true, s3).
Proof.
  intros fuel k s version code reason cl body rest c fs v os F K O N L H1 H2 NB LB I IB EN.
  rewrite (open_ok fuel s k version code reason fs v (body ++ c :: rest) F K O N L I).
  rewrite (choose_limited s (body ++ c :: rest) false fs v (Some reason) cl (Z.of_nat (length body)) H1 H2 NB LB).
  eexists _.
  destruct (linv_steps fuel (c :: rest) os body (chosen s (body ++ c :: rest) false fs v (Some reason) Limited (Z.of_nat (length body)))) as (s2 & E & V & O2 & P2).
  { repeat split; cbn [chosen rlen inp]; lia. }
  { exact IB. }
  rewrite EN in V. destruct V as (M & R & _ & X). destruct (cloaded s2) eqn:C; [destruct X as (? & ? & ? & _); discriminate|]. cbn [app] in X.
  exists s2. eexists _. split; [reflexivity|]. split; [exact E|]. split.
  - unfold getNext, load, fetchByte. rewrite M, C, X. cbn [obind cur]. reflexivity.
  - cbn [setLoaded setLen inp rlen]. split; [reflexivity|]. unfold hasItems. cbn [setLoaded setLen mode cloaded rlen]. rewrite R. reflexivity.
Qed.
Print Assumptions http_past_end_refuted.
Example http_past_end_holds :
  (let! (s, _) := open 9 (newResp (ok200 [mkField CL (tx "1") [] []] ++ tx "aHT")) in let! (s, l) := rsteps 9 [GetNext; HasItems; GetNext; HasItems] s in Ok (l, inp s)) =
  Ok ([Byte 97; Yes false; Byte 72; Yes true], tx "T").
Proof. vm_compute. reflexivity. Qed.

(** C262 is false: trailer fields behind the last chunk.  Only the first line is taken off, the
    rest of the trailer stays in front of the next answer. *)
Theorem http_trailer_refuted : forall (fuel : nat) (s : resp) (size first others : list Z), (1 <= fuel)%nat ->
  mode s = Some Chunk -> eof s = false -> cloaded s = false -> rlen s = 0 -> numeral 16 size 0 -> few_small size -> no_cr first ->
  inp s = size ++ crlf ++ first ++ crlf ++ others ->
  exists s', hasItems fuel s = Ok (false, s') /\ inp s' = others.
Proof.
  intros fuel s size first others F M E C R N S NC I. destruct (size_line size [] 0 N (conj Logic.I (Forall_nil _)) S ltac:(lia)) as (Q1 & Q2 & Q3).
  rewrite app_nil_r in *. unfold hasItems. rewrite M, C, R. cbn [orb Z.ltb Z.compare]. unfold openChunk. rewrite chunkLine_status.
  rewrite (statusLine_ok 0 fuel s size (first ++ crlf ++ others) F E Q1 Q2 I). cbn [obind]. rewrite Q3. cbn [setLen rlen Z.eqb].
  rewrite (readLine_line _ first others); [|reflexivity|reflexivity|exact NC]. eexists. split; [reflexivity|]. reflexivity.
Qed.
Print Assumptions http_trailer_refuted.
Example http_trailer_holds :
  (let! (s, _) := open 9 (newResp (chunkedHead ++ tx "0" ++ crlf ++ tx "A: 1" ++ crlf ++ tx "B: 2" ++ crlf ++ crlf ++ tx "HTTP")) in
   let! (s, l) := rsteps 9 [HasItems] s in Ok (l, inp s)) = Ok ([Yes false], tx "B: 2" ++ crlf ++ crlf ++ tx "HTTP").
Proof. vm_compute. reflexivity. Qed.

(** C263 is false: a status line without a reason phrase.  The status message refers outside of
    the memory of the line. *)
Theorem http_no_reason_refuted : forall (fuel k : nat) (s : resp) (version code rest : list Z) (fs : list rfield) (v : Z),
  fresh s -> (k < fuel)%nat -> Forall (fun c => c <> 32) version -> no_cr version -> Forall rfield_ok fs -> numeral 10 code v -> v < 2 ^ 64 ->
  inp s = concat (repeat crlf k) ++ version ++ [32] ++ code ++ crlf ++ concat (map rfield_text fs) ++ crlf ++ rest ->
  exists s', open fuel s = Ok (s', v) /\ getStatusMessage s' = Undef.
Proof.
  intros fuel k s version code rest fs v F K V CV O N L I.
  rewrite (open_line fuel s k version code None v (concat (map rfield_text fs) ++ crlf ++ rest) true (headed s rest false fs v None) F K V CV Logic.I N L).
  - eexists. split; [reflexivity|]. unfold getStatusMessage, chooseMode. destruct (text_eqb _ _); [reflexivity|]. destruct (getHeader _ _); reflexivity.
  - rewrite I. unfold line_of. rewrite app_nil_r. repeat rewrite <- app_assoc. reflexivity.
  - rewrite (headerLoop_ok fs _ _ rest); [reflexivity|exact O|reflexivity| |reflexivity].
    rewrite app_length. pose proof (fields_length fs). lia.
Qed.
Print Assumptions http_no_reason_refuted.
Example http_no_reason_holds : (let! (s, c) := open 9 (newResp (tx "HTTP/1.1 200" ++ crlf ++ crlf)) in Ok (c, message s)) = Ok (200, None).
Proof. vm_compute. reflexivity. Qed.

(** C264 is false: the functions that read the body are documented to open the response; before
    open they act on a value that was never set. *)
Theorem http_auto_open_refuted : forall (fuel : nat) (input : list Z),
  hasItems fuel (newResp input) = Undef /\ getNext fuel (newResp input) = Undef /\ peek fuel (newResp input) = Undef.
Proof. intros. repeat split. Qed.
Print Assumptions http_auto_open_refuted.
Example http_auto_open_holds : hasItems 9 (newResp (ok200 [mkField CL (tx "1") [] []] ++ tx "a")) = Undef.
Proof. reflexivity. Qed.

(** C265 is false: a connection that is closed inside of the head.  open answers as if the head
    were complete; the line that was cut is dropped. *)
Theorem http_cut_head_refuted : forall (fuel k : nat) (s : resp) (version code reason cut : list Z) (fs : list rfield) (v : Z),
  fresh s -> (k < fuel)%nat -> head_ok version code reason fs -> numeral 10 code v -> v < 2 ^ 64 -> no_cr cut ->
  inp s = concat (repeat crlf k) ++ version ++ [32] ++ code ++ [32] ++ reason ++ crlf ++ concat (map rfield_text fs) ++ cut ->
  exists s', open fuel s = Ok (s', v) /\ parsed s' = true /\
    forall n, headerDefined n s' = (if first_value n (map rfield_pair fs) then true else false).
Proof.
  intros fuel k s version code reason cut fs v F K (_ & V & CV & CR & O) N L NC I.
  rewrite (open_line fuel s k version code (Some reason) v (concat (map rfield_text fs) ++ cut) true
             (headed s [] true fs v (Some reason)) F K V CV CR N L).
  - eexists. split; [reflexivity|].
    assert (E : forall s, parsed (chooseMode s) = true /\ rhdrs (chooseMode s) = rhdrs s).
    { clear. intros s. unfold chooseMode. destruct (text_eqb _ _); [auto|]. destruct (getHeader _ _); auto. }
    destruct (E (headed s [] true fs v (Some reason))) as (A & B). split; [exact A|]. intros n. unfold headerDefined. rewrite B, chooseMode_find.
    destruct (first_value n (map rfield_pair fs)); reflexivity.
  - rewrite I. unfold line_of. repeat rewrite <- app_assoc. cbn [app]. repeat rewrite <- app_assoc. reflexivity.
  - rewrite (headerLoop_cut fs _ _ cut); [reflexivity|exact O|reflexivity| |exact NC|reflexivity].
    rewrite app_length. pose proof (fields_length fs). lia.
Qed.
Print Assumptions http_cut_head_refuted.
Example http_cut_head_holds : (let! (s, c) := open 9 (newResp (tx "HTTP/1.1 200 OK" ++ crlf ++ tx "A: 1" ++ crlf ++ tx "Content-Len")) in Ok (c, rhdrs s, parsed s)) =
  Ok (200, [(tx "A", tx "1")], true).
Proof. vm_compute. reflexivity. Qed.
