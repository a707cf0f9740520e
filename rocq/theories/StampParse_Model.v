(** Model of TimeStamp::fromDBTime and TimeStamp::fromISO8601Time,
    src/lightspeed/base/timestamp.cpp, on top of the models of TextParser and TimeStamp.
    Texts are lists of character codes; the limit of the parser's buffer (256 and 50
    characters, StaticAlloc) is not modelled.  [Throw] is the exception
    InvalidDateTimeFormat or the one of fromYMDhms. *)
From Coq Require Import ZArith String Ascii.
From Verif Require Import Common TimeStamp_Spec TimeStamp_Model TextParser_Model.
Local Open Scope Z_scope.

Fixpoint pat (s : string) : list Z :=
  match s with EmptyString => [] | String c t => Z.of_nat (nat_of_ascii c) :: pat t end.
(** a call of the parser; [\n] does not occur in the patterns *)
Definition tparse (p : string) (src : list Z) : outcome (bool * tp) :=
  run [10] [] (4 * length (pat p) + length src + 20) (pat p) src.
(** containers/arrayt.h: position of the first character that is in a set; head and offset
    take at most what is there *)
Fixpoint findOneOf (set src : list Z) : option nat :=
  match src with
  | [] => None
  | c :: t => if existsb (Z.eqb c) set then Some 0%nat else option_map S (findOneOf set t)
  end.
Definition head (n : nat) (src : list Z) : list Z := firstn n src.
Definition offset (n : nat) (src : list Z) : list Z := skipn n src.

(** fields of a result as natural numbers *)
Fixpoint fields (st : tp) (ns : list nat) : outcome (list Z) :=
  match ns with [] => Ok [] | n :: ns => let! x := resultNat st n in let! l := fields st ns in Ok (x :: l) end.

Section Stamp.
  Variable timegm : tm -> Z.
  Definition ymdhms (l : list Z) : outcome tstamp :=
    match l with [y; mo; d; h; m; s] => fromYMDhms timegm y mo d h m s | _ => Undef end.

  (** timestamp.cpp:10-35 *)
  Definition fromDBTime (dbdate : list Z) : outcome tstamp :=
    let! (ok, st) := tparse " %u1-%u2-%u3 %u4:%u5:%u6 " dbdate in
    if ok : bool then let! l := fields st [1; 2; 3; 4; 5; 6]%nat in ymdhms l
    else
      let! (ok, st) := tparse " %u1-%u2-%u3 " dbdate in
      if ok : bool then let! l := fields st [1; 2; 3]%nat in ymdhms (l ++ [0; 0; 0])
      else
        let! (ok, st) := tparse " %u1:%u2:%u3 " dbdate in
        if ok : bool then let! l := fields st [1; 2; 3]%nat in ymdhms ([0; 0; 0] ++ l)
        else Throw.

  (** timestamp.cpp:37-40 *)
  Definition fixShortYear (y : Z) : Z := if y <=? 50 then y + 2000 else u64 (y + 1900).
  Definition fixYear (l : list Z) : list Z := match l with y :: t => fixShortYear y :: t | [] => [] end.
  (** (natural)parse[2]*7-6 *)
  Definition week (l : list Z) : list Z := match l with [y; w] => [y; 1; u64 (w * 7 - 6)] | _ => l end.
  Definition yearDay (l : list Z) : list Z := match l with [y; d] => [y; 1; d] | _ => l end.

  (** timestamp.cpp:42-90 *)
  Definition parse8601date (datePart : list Z) : outcome tstamp :=
    let date (f : list Z -> list Z) st ns := let! l := fields st ns in ymdhms (f l ++ [0; 0; 0]) in
    let n := length datePart in
    if (n =? 4)%nat then
      let! (ok, st) := tparse "%u1" datePart in
      if ok : bool then date (fun l => l ++ [1; 1]) st [1%nat] else Throw
    else if (n =? 6)%nat then
      let! (ok, st) := tparse "%(2,2)u1%%(2,2)u2%%(2,2)u3" datePart in
      if ok : bool then date fixYear st [1; 2; 3]%nat else Throw
    else if (n =? 7)%nat then
      let! (ok, st) := tparse "%u1W%u2" datePart in
      if ok : bool then date week st [1; 2]%nat
      else
        let! (ok, st) := tparse "%(4,4)u1%%u2" datePart in
        if ok : bool then date yearDay st [1; 2]%nat
        else
          let! (ok, st) := tparse "%u1-%u2" datePart in
          if ok : bool then date (fun l => l ++ [1]) st [1; 2]%nat else Throw
    else if (n =? 8)%nat then
      let! (ok, st) := tparse "%u1-%u2-%u3" datePart in
      if ok : bool then date fixYear st [1; 2; 3]%nat
      else
        let! (ok, st) := tparse "%u1-W%u2" datePart in
        if ok : bool then date week st [1; 2]%nat
        else
          let! (ok, st) := tparse "%u1-%u2" datePart in
          if ok : bool then date yearDay st [1; 2]%nat
          else
            let! (ok, st) := tparse "%(4,4)u1%%(2,2)u2%%(2,2)u3" datePart in
            if ok : bool then date (fun l => l) st [1; 2; 3]%nat else Throw
    else if (n =? 10)%nat then
      let! (ok, st) := tparse "%u1-%u2-%u3" datePart in
      if ok : bool then date (fun l => l) st [1; 2; 3]%nat else Throw
    else Throw.

  (** timestamp.cpp:115-142: the time without fraction and zone; another length leaves the
      time as it was constructed *)
  Definition clockPart (timePart : list Z) : outcome tstamp :=
    let clk p (f : list Z -> list Z) ns :=
      let! (ok, st) := tparse p timePart in
      if ok : bool then let! l := fields st ns in ymdhms ([0; 0; 0] ++ f l) else Throw in
    let n := length timePart in
    if (n =? 2)%nat then clk "%u1"%string (fun l => l ++ [0; 0]) [1%nat]
    else if (n =? 4)%nat then clk "%u(2,2)u1%%(2,2)u2"%string (fun l => l ++ [0]) [1; 2]%nat
    else if (n =? 5)%nat then clk "%u1:%u2"%string (fun l => l ++ [0]) [1; 2]%nat
    else if (n =? 6)%nat then clk "%u(2,2)u1%%(2,2)u2%%(2,2)u3"%string (fun l => l) [1; 2; 3]%nat
    else if (n =? 8)%nat then clk "%u1:%u2:%u3"%string (fun l => l) [1; 2; 3]%nat
    else Ok ts_new.
  (** timestamp.cpp:150-159: the offset of a zone without its sign; [integer zoneofsmin] *)
  Definition zoneOffset (zonespec : list Z) : outcome tstamp :=
    let mins l := match l with [h] => Ok (h * 60) | [h; m] => Ok (h * 60 + m) | _ => Undef end in
    let! (ok, st) := tparse "%u1" zonespec in
    let! z := (if ok : bool then let! l := fields st [1%nat] in mins l
      else
        let! (ok, st) := tparse "%(2,2)u1%%(2,2)u2" zonespec in
        if ok : bool then let! l := fields st [1; 2]%nat in mins l
        else
          let! (ok, st) := tparse "%u1%:%u2" zonespec in
          if ok : bool then let! l := fields st [1; 2]%nat in mins l else Throw) in
    Ok (intervalMin (u64 z)).
  (** timestamp.cpp:94-172; the conversion of the fraction (110-111) is not modelled, the
      pattern never accepts it *)
  Definition parse8601time (timePart : list Z) : outcome tstamp :=
    let '(zonespec, timePart) := match findOneOf (pat "Z+-") timePart with
                                 | Some p => (offset p timePart, head p timePart) | None => ([], timePart) end in
    let! (millis, timePart) := (match findOneOf (pat ".") timePart with
      | Some dot =>
          let! (ok, _) := tparse "%f1" (offset dot timePart) in
          if ok : bool then Undef else Ok (0, head dot timePart)
      | None => Ok (0, timePart)
      end) in
    let! res := clockPart timePart in
    let! res := op_add res (intervalMSec millis) in
    match zonespec with
    | [] => Ok res
    | zonedir :: zone =>
        if (zonedir =? 90) && match zone with [] => true | _ => false end then Ok res
        else
          let! ofs := zoneOffset zone in
          if zonedir =? 45 then op_add res ofs
          else if negb (zonedir =? 43) then op_sub res ofs
          else Throw
    end.
  (** timestamp.cpp:175-188 *)
  Definition fromISO8601Time (isotime : list Z) : outcome tstamp :=
    let sep := match findOneOf (pat "T ") isotime with Some p => p | None => length isotime end in
    let! date := parse8601date (head sep isotime) in
    let! time := parse8601time (offset (sep + 1) isotime) in
    op_add date time.
End Stamp.
