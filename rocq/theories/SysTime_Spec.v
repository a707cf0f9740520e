(** Time spans and points of time as counts of microseconds, independent of the code. *)
From Coq Require Import ZArith.
Local Open Scope Z_scope.

(** days, hours, minutes, seconds and milliseconds as microseconds *)
Definition span (d h m s ms : Z) : Z := ((((d * 24 + h) * 60 + m) * 60 + s) * 1000 + ms) * 1000.
(** a moment of expiry; None is never *)
Definition expiry := option Z.
Definition is_over (e : expiry) (now : Z) : Prop := match e with Some t => t < now | None => False end.
Definition remains (e : expiry) (now : Z) : expiry := match e with Some t => Some (Z.max 0 (t - now)) | None => None end.
Definition sooner (a b : expiry) : Prop :=
  match a, b with Some x, Some y => x < y | Some _, None => True | None, _ => False end.
