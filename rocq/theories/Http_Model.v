(** Model of the HTTP client, HttpRequest and HttpResponse
    (src/lightspeed/base/streams/httpc.h, httpc.tcc).  Texts are lists of bytes.  The pool that
    holds the texts is not modelled, except where a reference leaves it.  The header map is a
    list in the order of its keys (the tree behind it is modelled in Avl_Model and Map_Model). *)
From Coq Require Import ZArith String.
From Verif Require Import Common IntText_Model Str_Spec Http_Spec.
Import ListNotations.
Local Open Scope Z_scope.

Definition u64 (x : Z) : Z := x mod 2 ^ 64.
Definition hmap := list (list Z * list Z).
(** map.h:140-142: insert, an existing value stays *)
Fixpoint hinsert (k v : list Z) (m : hmap) : hmap :=
  match m with
  | [] => [(k, v)]
  | (k', v') :: m' =>
      match text_order k k' with Lt => (k, v) :: m | Eq => m | Gt => (k', v') :: hinsert k v m' end
  end.
(** map.h:252-257: replace *)
Fixpoint hreplace (k v : list Z) (m : hmap) : hmap :=
  match m with
  | [] => [(k, v)]
  | (k', v') :: m' =>
      match text_order k k' with Lt => (k, v) :: m | Eq => (k', v) :: m' | Gt => (k', v') :: hreplace k v m' end
  end.
(** map.h:152-155: erase *)
Definition herase (k : list Z) (m : hmap) : hmap := filter (fun e => negb (text_eqb (fst e) k)) m.
(** map.h:162-166: find *)
Fixpoint hfind (k : list Z) (m : hmap) : option (list Z) :=
  match m with [] => None | (k', v) :: m => if text_eqb k k' then Some v else hfind k m end.

(** ** HttpRequest, httpc.h:14-79; [out] is what has been given to the output function *)
Record req := mkReq { method : list Z; path : list Z; hdrs : hmap; sent : bool; chunk : list Z; maxChunk : Z; out : list Z }.

(** httpc.tcc:47-56: setMethod and setPath *)
Definition setMethod (m : list Z) (r : req) : req := mkReq m (path r) (hdrs r) (sent r) (chunk r) (maxChunk r) (out r).
Definition setPath (p : list Z) (r : req) : req := mkReq (method r) p (hdrs r) (sent r) (chunk r) (maxChunk r) (out r).
(** httpc.tcc:106-109: addHeader *)
Definition addHeader (k v : list Z) (r : req) : req :=
  mkReq (method r) (path r) (hreplace k v (hdrs r)) (sent r) (chunk r) (maxChunk r) (out r).
(** httpc.tcc:195-204: sendString *)
Definition sendString (t : list Z) (r : req) : req :=
  mkReq (method r) (path r) (hdrs r) (sent r) (chunk r) (maxChunk r) (out r ++ t).
Definition setSent (b : bool) (r : req) : req := mkReq (method r) (path r) (hdrs r) b (chunk r) (maxChunk r) (out r).
(** httpc.tcc:148-154: one header line *)
Fixpoint sendFields (m : hmap) (r : req) : req :=
  match m with
  | [] => r
  | (k, v) :: m => sendFields m (sendString crlf (sendString v (sendString (tx ": ") (sendString k r))))
  end.
(** httpc.tcc:136-157: sendHeaders; the erased name ends with a tab *)
Definition sendHeaders (body : bool) (r : req) : req :=
  let r := if body then
             let r := addHeader (tx "Transfer-Encoding") (tx "chunked") r in
             mkReq (method r) (path r) (herase (tx "Content-Length" ++ [9]) (hdrs r)) (sent r) (chunk r) (maxChunk r) (out r)
           else r in
  let r := sendString (tx " ") (sendString (method r) r) in
  let r := sendString (tx " HTTP/1.1" ++ crlf) (sendString (path r) r) in
  let r := sendFields (hdrs r) r in
  setSent true (sendString crlf r).
(** httpc.tcc:207-213: sendChunk, ToString with base 16 and small letters *)
Definition sendChunk (r : req) : outcome req :=
  let! n := formatU (Z.of_nat (length (chunk r))) 16 false in
  Ok (sendString crlf (sendString (chunk r) (sendString crlf (sendString n r)))).
Definition setChunk (c : list Z) (r : req) : req := mkReq (method r) (path r) (hdrs r) (sent r) c (maxChunk r) (out r).
(** httpc.tcc:179-186: flush *)
Definition flush (r : req) : outcome req :=
  let r := if sent r then r else sendHeaders false r in
  match chunk r with
  | [] => Ok r
  | _ => let! r := sendChunk r in Ok (setChunk [] r)
  end.
(** httpc.tcc:166-170: write *)
Definition write (b : Z) (r : req) : outcome req :=
  let r := setChunk (chunk r ++ [b]) r in
  if Z.of_nat (length (chunk r)) =? maxChunk r then flush r else Ok r.
(** httpc.tcc:189-192: setMaxChunkSize *)
Definition setMaxChunkSize (n : Z) (r : req) : req := mkReq (method r) (path r) (hdrs r) (sent r) (chunk r) n (out r).
(** httpc.tcc:33-44: reset *)
Definition reset (r : req) : outcome req :=
  let! r := (if sent r then let! r := flush r in sendChunk r else Ok r) in
  Ok (mkReq [] [] [] false (chunk r) (maxChunk r) (out r)).
(** httpc.tcc:112-127: send with and without data *)
Definition send (data : list Z) (r : req) : outcome req :=
  let! n := formatU (Z.of_nat (length data)) 10 false in
  let r := addHeader (tx "Content-Length") n r in
  let r := sendString data (sendHeaders false r) in
  reset (setSent false r).
Definition sendEmpty (r : req) : outcome req := reset (setSent false (sendHeaders false r)).
(** httpc.tcc:130-133: beginBody *)
Definition beginBody (r : req) : req := sendHeaders true r.
(** httpc.tcc:17-20: the constructor *)
Definition newReq : req := mkReq [] [] [] false [] 65536 [].

Fixpoint addHeaders (hs : list (list Z * list Z)) (r : req) : req :=
  match hs with [] => r | (k, v) :: hs => addHeaders hs (addHeader k v r) end.
Definition bstep (o : bop) (r : req) : outcome req :=
  match o with Write c => write c r | Flush => flush r | MaxChunk n => Ok (setMaxChunkSize n r) end.
Fixpoint bsteps (os : list bop) (r : req) : outcome req :=
  match os with [] => Ok r | o :: os => let! r := bstep o r in bsteps os r end.

(** arrayt.h find and arrayExpr.h: the place of a character, of a text *)
Fixpoint findc (c : Z) (t : list Z) : option nat :=
  match t with [] => None | x :: t => if x =? c then Some O else match findc c t with Some n => Some (S n) | None => None end end.
Fixpoint prefixb (p t : list Z) : bool :=
  match p, t with [], _ => true | x :: p, y :: t => (x =? y) && prefixb p t | _, _ => false end.
Fixpoint findt (p t : list Z) : option nat :=
  if prefixb p t then Some O
  else match t with [] => None | _ :: t => match findt p t with Some n => Some (S n) | None => None end end.
(** httpc.tcc:59-103: setUrl; [auth] stands for the value of the authorization, its coding is not modelled here *)
Definition setUrl (auth : list Z -> list Z) (url : list Z) (proxy : bool) (r : req) : req * bool :=
  match findt (tx "://") url with
  | None => (r, false)
  | Some n =>
      let proto := firstn n url in
      if negb (existsb (text_eqb proto) [tx "http"; tx "https"; tx "ws"; tx "wss"]) then (r, false)
      else
        let host := skipn (n + 3) url in
        let r := if proxy then setPath url r
                 else match findc 47 host with None => setPath (tx "/") r | Some k => setPath (skipn k host) r end in
        let host := match findc 47 host with None => host | Some k => firstn k host end in
        match findc 64 host with
        | None => (addHeader (tx "Host") host r, true)
        | Some k => (addHeader (tx "Host") (skipn (k + 1) host) (addHeader (tx "Authorization") (auth (firstn k host)) r), true)
        end
  end.

(** ** HttpResponse, httpc.h:93-193; [inp] is what the input function still delivers, then
    it answers -1 for ever *)
Inductive rmode := Direct | Limited | Chunk.
Record resp := mkResp {
  inp : list Z; eof : bool; rlen : Z; cur : Z; cloaded : bool;
  mode : option rmode;             (* None: not initialised *)
  rhdrs : hmap; status : Z;
  message : option (list Z);       (* None: a reference outside of the pool *)
  opened : bool; parsed : bool }.
(** httpc.tcc:219-228: the constructor *)
Definition newResp (input : list Z) : resp := mkResp input true 0 0 false None [] 0 (Some []) false false.

Definition setInp (i : list Z) (e : bool) (s : resp) : resp :=
  mkResp i e (rlen s) (cur s) (cloaded s) (mode s) (rhdrs s) (status s) (message s) (opened s) (parsed s).
Definition setLen (n : Z) (s : resp) : resp :=
  mkResp (inp s) (eof s) n (cur s) (cloaded s) (mode s) (rhdrs s) (status s) (message s) (opened s) (parsed s).
Definition setLoaded (b : bool) (s : resp) : resp :=
  mkResp (inp s) (eof s) (rlen s) (cur s) b (mode s) (rhdrs s) (status s) (message s) (opened s) (parsed s).
(** httpc.tcc:231-240: fetchByte *)
Definition fetchByte (s : resp) : bool * resp :=
  match inp s with
  | [] => (false, setInp [] true s)
  | c :: i => (true, mkResp i (eof s) (rlen s) c true (mode s) (rhdrs s) (status s) (message s) (opened s) (parsed s))
  end.
(** httpc.tcc:470-491: readLine; [line] is what has been stored, the last two characters are cut off.
    At the end of the input the result is empty. *)
Fixpoint lineLoop (prev : Z) (line i : list Z) : list Z * list Z * bool :=
  match i with
  | [] => ([], [], true)
  | z :: i =>
      let line := line ++ [z] in
      if (prev =? 13) && (z =? 10) then (firstn (length line - 2) line, i, false) else lineLoop z line i
  end.
Definition readLine (s : resp) : list Z * resp :=
  if eof s then ([], s)
  else let '(l, i, e) := lineLoop 0 [] (inp s) in (l, setInp i e s).
(** httpc.tcc:494-535: parseNumber; a byte of a text is compared as unsigned *)
Definition digitOf (base c : Z) : option Z :=
  if (48 <=? c) && (c <=? 57) then Some (c - 48)
  else if (65 <=? c) && (c <? 65 + base - 10) then Some (c - 65 + 10)
  else if (97 <=? c) && (c <? 97 + base - 10) then Some (c - 97 + 10)
  else None.
Fixpoint numberLoop (base n : Z) (t : list Z) : Z :=
  match t with
  | [] => n
  | c :: t =>
      if (48 <=? c) && (c <=? 57) then numberLoop base (u64 (n * base + c - 48)) t
      else if (65 <=? c) && (c <? 65 + base - 10) then numberLoop base (u64 (n * base + c - 65 + 10)) t
      else if (97 <=? c) && (c <? 97 + base - 10) then u64 (n * base + c - 97 + 10)
      else n
  end.
Fixpoint parseNumber (t : list Z) (base : Z) : Z :=
  match t with
  | [] => 0
  | c :: t =>
      match digitOf base c with
      | Some d => numberLoop base d t
      | None => if (c =? 32) || (c =? 9) then parseNumber t base else 0
      end
  end.
(** httpc.tcc:538-544: trim *)
Definition blankb (c : Z) : bool := (c =? 32) || (c =? 9).
Fixpoint trimLeft (t : list Z) : list Z :=
  match t with [] => [] | c :: t' => if blankb c then trimLeft t' else t end.
Definition trim (t : list Z) : list Z := rev (trimLeft (rev (trimLeft t))).

(** httpc.tcc:251-255: empty lines before the status line are skipped *)
Fixpoint statusLine (fuel : nat) (s : resp) : outcome (list Z * resp) :=
  match fuel with
  | O => NoFuel
  | S f => let (l, s) := readLine s in match l with [] => statusLine f s | _ => Ok (l, s) end
  end.
(** httpc.tcc:262-274: the header lines; the answer false is a line without a colon *)
Fixpoint headerLoop (fuel : nat) (s : resp) : outcome (bool * resp) :=
  match fuel with
  | O => NoFuel
  | S f =>
      let (l, s) := readLine s in
      match l with
      | [] => Ok (true, s)
      | _ =>
          match findc 58 l with
          | None => Ok (false, s)
          | Some n =>
              let k := trim (firstn n l) in let v := trim (skipn (n + 1) l) in
              headerLoop f (mkResp (inp s) (eof s) (rlen s) (cur s) (cloaded s) (mode s) (hinsert k v (rhdrs s)) (status s) (message s) (opened s) (parsed s))
          end
      end
  end.
Definition naturalNull : Z := 2 ^ 64 - 1.
(** httpc.tcc:329-342: headerDefined and getHeader *)
Definition headerDefined (k : list Z) (s : resp) : bool := match hfind k (rhdrs s) with Some _ => true | None => false end.
Definition getHeader (k : list Z) (s : resp) : list Z := match hfind k (rhdrs s) with Some v => v | None => [] end.
(** httpc.tcc:276-295: how the body ends *)
Definition chooseMode (s : resp) : resp :=
  let (m, n) :=
    if text_eqb (getHeader (tx "Transfer-Encoding") s) (tx "chunked") then (Chunk, 0)
    else match getHeader (tx "Content-Length") s with [] => (Direct, naturalNull) | cl => (Limited, parseNumber cl 10) end in
  mkResp (inp s) (eof s) n (cur s) false (Some m) (rhdrs s) (status s) (message s) (opened s) true.
(** httpc.tcc:244-297: open.  arrayt.h:609-644: split(' '), getNext and getRest; getRest behind the end
    of the text is a text of length 2^64-1 *)
Definition open (fuel : nat) (s : resp) : outcome (resp * Z) :=
  if opened s then Ok (s, status s)
  else
    let s := mkResp (inp s) false (rlen s) (cur s) (cloaded s) (mode s) (rhdrs s) (status s) (message s) true false in
    let! (l, s) := statusLine fuel s in
    match findc 32 l with
    | None => Throw
    | Some n =>
        let l2 := skipn (n + 1) l in
        let (code, msg) := match findc 32 l2 with None => (l2, None) | Some m => (firstn m l2, Some (skipn (m + 1) l2)) end in
        let s := mkResp (inp s) (eof s) (rlen s) (cur s) (cloaded s) (mode s) (rhdrs s) (parseNumber code 10) msg (opened s) (parsed s) in
        let! (ok, s) := headerLoop (S (length (inp s))) s in
        if negb (ok : bool) then Ok (s, naturalNull)
        else let s := chooseMode s in Ok (s, status s)
    end.
(** httpc.tcc:351-354: getStatusMessage *)
Definition getStatusMessage (s : resp) : outcome (list Z) := match message s with Some m => Ok m | None => Undef end.

(** httpc.tcc:375-393: openChunk *)
Fixpoint chunkLine (fuel : nat) (s : resp) : outcome (list Z * resp) :=
  match fuel with
  | O => NoFuel
  | S f => let (l, s) := readLine s in match l with [] => chunkLine f s | _ => Ok (l, s) end
  end.
Definition openChunk (fuel : nat) (s : resp) : outcome (bool * resp) :=
  let! (l, s) := chunkLine fuel s in
  let s := setLen (parseNumber l 16) s in
  if rlen s =? 0 then let (_, s) := readLine s in Ok (false, setInp (inp s) true s)
  else Ok (true, setLoaded false s).
(** httpc.tcc:357-371: hasItems *)
Definition hasItems (fuel : nat) (s : resp) : outcome (bool * resp) :=
  match mode s with
  | None => Undef
  | Some Direct => if cloaded s then Ok (true, s) else Ok (fetchByte s)
  | Some Limited => Ok (cloaded s || (0 <? rlen s), s)
  | Some Chunk => if cloaded s || (0 <? rlen s) then Ok (true, s) else openChunk fuel s
  end.
(** httpc.tcc:396-426: getNext *)
Definition load (s : resp) : outcome resp :=
  if cloaded s then Ok s else let (ok, s) := fetchByte s in if ok then Ok s else Throw.
Definition loadChunk (fuel : nat) (s : resp) : outcome resp :=
  if cloaded s then Ok s
  else
    let! s := (if rlen s =? 0 then let! (ok, s) := openChunk fuel s in if (ok : bool) then Ok s else Throw else Ok s) in
    load s.
Definition getNext (fuel : nat) (s : resp) : outcome (resp * Z) :=
  match mode s with
  | None => Undef
  | Some Direct => let! s := load s in Ok (setLoaded false s, cur s)
  | Some Limited => let! s := load s in Ok (setLoaded false (setLen (u64 (rlen s - 1)) s), cur s)
  | Some Chunk => let! s := loadChunk fuel s in Ok (setLoaded false (setLen (u64 (rlen s - 1)) s), cur s)
  end.
(** httpc.tcc:429-455: peek; in a chunked body the end is recognised by eof *)
Definition peek (fuel : nat) (s : resp) : outcome (resp * Z) :=
  match mode s with
  | None => Undef
  | Some Chunk =>
      if cloaded s then Ok (s, cur s)
      else
        let! s := (if rlen s =? 0 then let! (_, s) := openChunk fuel s in if eof s then Throw else Ok s else Ok s) in
        let! s := load s in Ok (s, cur s)
  | Some _ => let! s := load s in Ok (s, cur s)
  end.
(** httpc.tcc:301-326: reset; skip() is getNext *)
Fixpoint drain (fuel : nat) (s : resp) : outcome resp :=
  match fuel with
  | O => NoFuel
  | S f =>
      let! (more, s) := hasItems (S f) s in
      if (more : bool) then let! (s, _) := getNext (S f) s in drain f s else Ok s
  end.
Definition resetResp (fuel : nat) (s : resp) : outcome (resp * bool) :=
  if opened s && negb (parsed s) then Ok (s, false)
  else if opened s && (rlen s =? naturalNull) then Ok (s, false)
  else
    let! s := (if opened s then drain fuel s else Ok s) in
    Ok (mkResp (inp s) false (rlen s) (cur s) (cloaded s) (mode s) [] 0 (Some []) false false, true).

Definition rstep (fuel : nat) (o : rop) (s : resp) : outcome (resp * ranswer) :=
  match o with
  | HasItems => let! (b, s) := hasItems fuel s in Ok (s, Yes b)
  | GetNext => let! (s, c) := getNext fuel s in Ok (s, Byte c)
  | Peek => let! (s, c) := peek fuel s in Ok (s, Byte c)
  end.
Fixpoint rsteps (fuel : nat) (os : list rop) (s : resp) : outcome (resp * list ranswer) :=
  match os with
  | [] => Ok (s, [])
  | o :: os => let! (s, a) := rstep fuel o s in let! (s, l) := rsteps fuel os s in Ok (s, a :: l)
  end.
