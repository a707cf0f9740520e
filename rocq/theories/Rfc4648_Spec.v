(** Independent specification of the RFC 4648 encodings (Base16, Base32, Base64):
    the input is one long bit string (each byte most significant bit first), cut into
    groups of [k] bits, the last group extended on the right with zero bits; each
    group selects a character of the alphabet; with a padding character (a non-zero
    code) the text is filled up to a multiple of [block] characters. *)
From Verif Require Import Common.
Local Open Scope N_scope.

Definition byte_bits (b : N) : list bool := map (N.testbit b) [7;6;5;4;3;2;1;0].
Definition bit_string (bytes : list N) : list bool := flat_map byte_bits bytes.

(** number denoted by a group of bits, most significant first *)
Definition bits_value (l : list bool) : N :=
  fold_left (fun (a : N) (b : bool) => 2 * a + (if b then 1 else 0)) l 0.

(** cut into groups of k bits; [acc] is the current group, reversed *)
Fixpoint bit_groups (k : nat) (acc : list bool) (l : list bool) : list (list bool) :=
  match l with
  | [] => match acc with
          | [] => []
          | _ => [rev acc ++ repeat false (k - length acc)]
          end
  | b :: l => if Nat.eqb (S (length acc)) k then rev (b :: acc) :: bit_groups k [] l
              else bit_groups k (b :: acc) l
  end.

Definition rfc_symbols (k : nat) (bytes : list N) : list N :=
  map bits_value (bit_groups k [] (bit_string bytes)).

Definition rfc_padding (block : nat) (pad : N) (n : nat) : list N :=
  if pad =? 0 then [] else repeat pad (Nat.modulo (block - Nat.modulo n block) block).

Definition rfc_text (k block : nat) (alphabet : list N) (pad : N) (bytes : list N) : list N :=
  let syms := rfc_symbols k bytes in
  map (fun v => nth (N.to_nat v) alphabet 0) syms ++ rfc_padding block pad (length syms).

(** test vectors of RFC 4648 section 10: "foobar", "foob", "f" *)
Definition alpha64 : list N :=
  [65;66;67;68;69;70;71;72;73;74;75;76;77;78;79;80;81;82;83;84;85;86;87;88;89;90;
   97;98;99;100;101;102;103;104;105;106;107;108;109;110;111;112;113;114;115;116;117;118;119;120;121;122;
   48;49;50;51;52;53;54;55;56;57;43;47].
Example rfc_foobar : rfc_text 6 4 alpha64 61 [102;111;111;98;97;114] = [90;109;57;118;89;109;70;121].
Proof. vm_compute. reflexivity. Qed.
Example rfc_foob : rfc_text 6 4 alpha64 61 [102;111;111;98] = [90;109;57;118;89;103;61;61].
Proof. vm_compute. reflexivity. Qed.
Example rfc_f : rfc_text 6 4 alpha64 61 [102] = [90;103;61;61].
Proof. vm_compute. reflexivity. Qed.
