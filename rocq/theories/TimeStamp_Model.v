(** Model of TimeStamp, src/lightspeed/base/timestamp.{h,cpp} and
    src/lightspeed/base/linux/timestamp.cpp.
    [integer] and [natural] are 64 bit, [time_t] is a signed 64 bit number, [day] is a
    signed and [time] an unsigned 32 bit number.  [int] sums that overflow are undefined;
    a conversion to a smaller signed type keeps the low bits (as every compiler does). *)
From Coq Require Import ZArith.
From Verif Require Import Common TimeStamp_Spec.
Local Open Scope Z_scope.

(** conversions to unsigned and signed numbers of 32 and 64 bits *)
Definition u32 (z : Z) : Z := z mod 2 ^ 32.
Definition u64 (z : Z) : Z := z mod 2 ^ 64.
Definition s32 (z : Z) : Z := (z + 2 ^ 31) mod 2 ^ 32 - 2 ^ 31.
Definition s64 (z : Z) : Z := (z + 2 ^ 63) mod 2 ^ 64 - 2 ^ 63.
(** the result of an [int] operation *)
Definition int_op (z : Z) : outcome Z := if (- 2 ^ 31 <=? z) && (z <? 2 ^ 31) then Ok z else Undef.

(** timestamp.h:32-35 *)
Definition daySecs : Z := 86400.
Definition timeResolution : Z := 1000.
Definition dayMillis : Z := daySecs * timeResolution.
Definition daysFrom1601 : Z := 134774.

(** timestamp.h:324-326 *)
Record tstamp := mkTs { day : Z; time : Z }.

(** timestamp.h:38 *)
Definition ts_new : tstamp := mkTs 0 0.
(** timestamp.h:48: TimeStamp(integer day, natural time); the sum is unsigned *)
Definition ts (d t : Z) : tstamp := mkTs (s32 (u64 (d + t / dayMillis))) (t mod dayMillis).
(** timestamp.h:56: TimeStamp(integer day) *)
Definition ts_day (d : Z) : tstamp := mkTs (s32 d) 0.

(** timestamp.h:66-68: [unixTime/daySecs] and [unixTime%daySecs] mix time_t and natural,
    so they are unsigned *)
Definition fromUnix (t : Z) : tstamp :=
  ts (s64 (u64 t / daySecs)) (u64 (u64 t mod daySecs * timeResolution)).
(** timestamp.h:80-82 *)
Definition fromUnixMs (t millis : Z) : tstamp :=
  ts (s64 (u64 t / daySecs)) (u64 (u64 t mod daySecs * timeResolution + millis)).
(** timestamp.h:70-72 *)
Definition fromSeconds (sec : Z) : tstamp := ts (s64 (sec / daySecs)) (u64 (sec mod daySecs * timeResolution)).
(** timestamp.h:91-95 *)
Definition fromWindows (lo hi : Z) : tstamp :=
  let time64 := u64 (u64 (hi * 2 ^ 32) + lo) / 10000 in
  ts (s64 (u64 (time64 / dayMillis - daysFrom1601))) (time64 mod dayMillis).

(** timestamp.h:121-128 *)
Definition getDay (a : tstamp) : Z := day a.
Definition getTime (a : tstamp) : Z := time a.
Definition getMS (a : tstamp) : Z := time a mod timeResolution.

(** compare.h:9-14 *)
Inductive cmpResult := Less | Equal | Greater | NotEqual.
(** timestamp.h:131-137 *)
Definition compare (a b : tstamp) : cmpResult :=
  if day a =? day b then
    if time a =? time b then Equal else if time a <? time b then Less else Greater
  else if day a <? day b then Less else Greater.
(** compare.h:34-56 *)
Definition op_eq a b := match compare a b with Equal => true | _ => false end.
Definition op_ne a b := match compare a b with Equal => false | _ => true end.
Definition op_gt a b := match compare a b with Greater => true | _ => false end.
Definition op_lt a b := match compare a b with Less => true | _ => false end.
Definition op_ge a b := match compare a b with Less => false | _ => true end.
Definition op_le a b := match compare a b with Greater => false | _ => true end.

(** timestamp.h:273-278: the days to add and the new time *)
Definition fixOverflow (t : Z) : Z * Z := (t / dayMillis, u32 (t mod dayMillis)).
(** timestamp.h:280-288 *)
Fixpoint fixUnderflow (fuel : nat) (adds t : Z) : outcome (Z * Z) :=
  if 2 ^ 31 <? t then
    match fuel with O => NoFuel | S f => fixUnderflow f (adds + 1) (u32 (t + dayMillis)) end
  else Ok (adds, t).

(** timestamp.h:144-148 *)
Definition op_add (a b : tstamp) : outcome tstamp :=
  let newtime := u32 (time a + time b) in
  let! d := int_op (day a + day b) in
  let (adds, newtime) := fixOverflow newtime in
  Ok (ts (d + adds) newtime).
(** timestamp.h:155-159; one turn of the loop adds a day of milliseconds, so 30 turns are enough *)
Definition op_sub (a b : tstamp) : outcome tstamp :=
  let newtime := u32 (time a - time b) in
  let! d := int_op (day a - day b) in
  let! (adds, newtime) := fixUnderflow 30 0 newtime in
  Ok (ts (d - adds) newtime).

(** timestamp.h:220-234 *)
Definition intervalMSec (n : Z) : tstamp := ts (s64 (n / dayMillis)) (n mod dayMillis).
Definition intervalSec (n : Z) : tstamp := ts (s64 (n / daySecs)) (n mod daySecs * timeResolution).
Definition intervalMin (n : Z) : tstamp := ts (s64 (n / 144)) (n mod 144 * timeResolution * 60).
Definition intervalHour (n : Z) : tstamp := ts (s64 (n / 24)) (n mod 24 * timeResolution * 60 * 60).
Definition intervalDay (n : Z) : tstamp := ts (s64 n) 0.

(** timestamp.h:236: a time_t; the product and the sum are unsigned *)
Definition asUnix (a : tstamp) : Z := s64 (u64 (u64 (day a * daySecs) + time a / timeResolution)).
(** timestamp.h:239-261 *)
Definition getMilis (a : tstamp) : Z := u64 (u64 (u64 (getDay a) * dayMillis) + getTime a).
Definition getSecs (a : tstamp) : Z := u64 (u64 (u64 (getDay a) * (dayMillis / 1000)) + getTime a / 1000).
Definition getMins (a : tstamp) : Z := u64 (u64 (u64 (getDay a) * (dayMillis / 60000)) + getTime a / 60000).
Definition getHours (a : tstamp) : Z := u64 (u64 (u64 (getDay a) * (dayMillis / 3600000)) + getTime a / 3600000).
(** timestamp.h:264 *)
Definition isNull (a : tstamp) : bool := (day a =? 0) && (time a =? 0).

(** linux/timestamp.cpp:44-69; [timegm] is the function of the C library, [Throw] the
    exception for its error code *)
Definition fromYMDhms (timegm : tm -> Z) (Y M D h m s : Z) : outcome tstamp :=
  if Y =? 0 then
    let daysec := u64 (u64 (u64 (u64 (h * 60) + m) * 60) + s) in
    let ofs := daysec / daySecs in
    let daysec := daysec mod daySecs in
    Ok (ts (s64 (u64 (M * 30 + D + ofs))) (daysec * 1000))
  else
    let r := timegm (mkTm (s32 (u64 (Y - 1900))) (s32 (u64 (M - 1))) (s32 D) (s32 h) (s32 m) (s32 s) 0) in
    if r =? -1 then Throw
    else Ok (ts (s64 (u64 r / daySecs)) (u64 (u64 r mod daySecs * 1000))).

(** the part of strftime that the three formats below use, for years of four digits; the
    result is a text of character codes *)
Definition digit (z : Z) : N := Z.to_N (48 + z mod 10).
Definition dec2 (z : Z) : list N := [digit (z / 10); digit z].
Definition dec4 (z : Z) : list N := dec2 (z / 100) ++ dec2 z.
Definition strftime1 (t : tm) (c : N) : list N :=
  match c with
  | 89 => dec4 (tm_year t + 1900)   (* %Y *)
  | 109 => dec2 (tm_mon t + 1)      (* %m *)
  | 100 => dec2 (tm_mday t)         (* %d *)
  | 72 => dec2 (tm_hour t)          (* %H *)
  | 77 => dec2 (tm_min t)           (* %M *)
  | 83 => dec2 (tm_sec t)           (* %S *)
  | 119 => [digit (tm_wday t)]      (* %w *)
  | _ => [37; c]
  end%N.
Fixpoint strftime (t : tm) (fmt : list N) : list N :=
  match fmt with
  | [] => []
  | 37 :: c :: r => strftime1 t c ++ strftime t r
  | c :: r => c :: strftime t r
  end%N.

(** linux/timestamp.cpp:71-83: the text, or nothing if it does not fit into [size] characters
    with the closing zero; [gmtime] is the function of the C library *)
Definition formatTime (gmtime : Z -> tm) (size : nat) (fmt : list N) (a : tstamp) : list N :=
  let unixTime := s64 (day a * daySecs) in
  let unixTime := s64 (unixTime + u32 (time a + 500) / 1000) in
  let text := strftime (gmtime unixTime) fmt in
  if (length text <? size)%nat then text else [].

(** timestamp.cpp:299-302, format "%Y-%m-%d %H:%M:%S" *)
Definition asDBTime (gmtime : Z -> tm) : tstamp -> list N :=
  formatTime gmtime 20 [37;89;45;37;109;45;37;100;32;37;72;58;37;77;58;37;83]%N.
(** timestamp.cpp:309-313, format "%Y-%m-%dT%H:%M:%SZ" *)
Definition asISO8601Time (gmtime : Z -> tm) : tstamp -> list N :=
  formatTime gmtime 21 [37;89;45;37;109;45;37;100;84;37;72;58;37;77;58;37;83;90]%N.

(** timestamp.cpp:279-283 *)
Definition DAY_NAMES : list (list N) :=
  [[83;117;110]; [77;111;110]; [84;117;101]; [87;101;100]; [84;104;117]; [70;114;105]; [83;97;116]]%N.
Definition MONTH_NAMES : list (list N) :=
  [[74;97;110]; [70;101;98]; [77;97;114]; [65;112;114]; [77;97;121]; [74;117;110];
   [74;117;108]; [65;117;103]; [83;101;112]; [79;99;116]; [78;111;118]; [68;101;99]]%N.
Definition name_of (names : list (list N)) (i : Z) : outcome (list N) :=
  if i <? 0 then Undef else match nth_error names (Z.to_nat i) with Some n => Ok n | None => Undef end.
(** memcpy(buf+at, src, |src|) *)
Definition overlay (buf : list N) (at_ : nat) (src : list N) : list N :=
  firstn at_ buf ++ src ++ skipn (at_ + length src) buf.
Definition charAt (buf : list N) (i : nat) : outcome Z :=
  match nth_error buf i with Some c => Ok (Z.of_N c - 48) | None => Undef end.
(** timestamp.cpp:287-296, format "%w--, %d %m- %Y %H:%M:%S GMT" *)
Definition asRFC1123Time (gmtime : Z -> tm) (a : tstamp) : outcome (list N) :=
  let buf := formatTime gmtime 30
    [37;119;45;45;44;32;37;100;32;37;109;45;32;37;89;32;37;72;58;37;77;58;37;83;32;71;77;84]%N a in
  let! w := charAt buf 0 in
  let! name := name_of DAY_NAMES w in
  let buf := overlay buf 0 name in
  let! m1 := charAt buf 8 in
  let! m2 := charAt buf 9 in
  let! name := name_of MONTH_NAMES (m1 * 10 + m2 - 1) in
  Ok (overlay buf 8 name).
