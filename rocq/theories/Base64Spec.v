(** * Base64 texts (RFC 4648, section 5, padded): bits in groups of six, written in the URL-safe alphabet. *)
From Coq Require Import Ascii String ZArith List Bool.
Import ListNotations.
Open Scope Z_scope.

Definition chars (s : string) : list Z := map (fun c => Z.of_nat (nat_of_ascii c)) (list_ascii_of_string s).
Definition url_alphabet : list Z :=
  chars "ABCDEFGHIJKLMNOPQRSTUVWXYZabcdefghijklmnopqrstuvwxyz0123456789-_".
(** The bits of a byte, highest first. *)
Definition byte_bits (x : Z) : list bool := map (Z.testbit x) [7; 6; 5; 4; 3; 2; 1; 0].
(** The number a list of bits, highest first, stands for. *)
Definition number (bs : list bool) : Z := fold_left (fun n b => 2 * n + Z.b2z b) bs 0.
(** The bits six by six; the last group is filled with zeros. *)
Fixpoint sixes (n : nat) (bs : list bool) : list (list bool) :=
  match n, bs with
  | O, _ | _, [] => []
  | S n', _ => firstn 6 (bs ++ repeat false 5) :: sixes n' (skipn 6 bs)
  end.
Definition base64url (b : list Z) : list Z :=
  let bits := flat_map byte_bits b in
  let digits := map (fun g => nth (Z.to_nat (number g)) url_alphabet 0) (sixes (length bits) bits) in
  let pad := match Nat.modulo (length b) 3 with 1%nat => 2%nat | 2%nat => 1%nat | _ => 0%nat end in
  digits ++ repeat 61 pad.
