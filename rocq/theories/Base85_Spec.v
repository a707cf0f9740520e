(** Specification of the Base85 text: groups of four bytes are a big-endian number
    written with five digits in base 85 (most significant first); a final group of r
    bytes (1..3) is extended with zero bytes and written with its first r+1 digits. *)
From Verif Require Import Common.
Local Open Scope N_scope.

Definition be_value (bytes : list N) : N := fold_left (fun a b => a * 256 + b) bytes 0.

(** the digits of v in base 85, five places *)
Definition digits85 (v : N) : list N := map (fun k => (v / 85 ^ k) mod 85) [4; 3; 2; 1; 0].

Definition group85 (bytes : list N) : list N :=
  let r := length bytes in
  firstn (S r) (digits85 (be_value (bytes ++ repeat 0 (4 - r)))).

Fixpoint b85_digits (bytes : list N) : list N :=
  match bytes with
  | [] => []
  | a :: b :: c :: d :: rest => group85 [a; b; c; d] ++ b85_digits rest
  | tail => group85 tail
  end.

Definition b85_text (alphabet : list N) (bytes : list N) : list N :=
  map (fun d => nth (N.to_nat d) alphabet 0) (b85_digits bytes).
